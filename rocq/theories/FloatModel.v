(** IEEE-754 binary32 arithmetic used by the colour and font-size code, on top of
    the standard library's executable specification [Coq.Floats.SpecFloat].
    Assumes FLT_EVAL_METHOD 0 and round-to-nearest-even, as on the usual targets. *)
From Coq Require Export Floats.SpecFloat.
From Verif Require Import Base.
Open Scope Z_scope.

Definition f32 := spec_float.
Definition f32_mul : f32 -> f32 -> f32 := SFmul 24 128.
Definition f32_div : f32 -> f32 -> f32 := SFdiv 24 128.
Definition f32_add : f32 -> f32 -> f32 := SFadd 24 128.
Definition f32_sub : f32 -> f32 -> f32 := SFsub 24 128.

(** Integer to float conversion (rounds to nearest even). *)
Definition f32_of_Z (z : Z) : f32 := binary_normalize 24 128 z 0 false.

(** Float to integer conversion: truncation toward zero; [None] when the value is
    not finite. *)
Definition f32_trunc (x : f32) : option Z :=
  match x with
  | S754_zero _ => Some 0
  | S754_finite s m e =>
      let v := if 0 <=? e then Zpos m * 2 ^ e else Zpos m / 2 ^ (- e) in
      Some (if s then - v else v)
  | _ => None
  end.

(** [static_cast<uint32_t>(float)]: undefined when the truncated value does not
    fit. *)
Definition f32_to_u32 (x : f32) : outcome Z :=
  match f32_trunc x with
  | Some v => if (0 <=? v) && (v <? 2 ^ 32) then Ok v else UB
  | None => UB
  end.

Definition f32_le (x y : f32) : bool :=
  match SFcompare x y with Some Lt | Some Eq => true | _ => false end.

Definition f32_0 : f32 := f32_of_Z 0.
Definition f32_1 : f32 := f32_of_Z 1.
Definition f32_255 : f32 := f32_of_Z 255.
