(** What single precision must preserve, in rational numbers. *)
From Coq Require Import QArith.
From Verif Require Import Base FloatModel LayoutModel LayoutSpec FloatLayoutModel.
Open Scope Z_scope.

(** The value of a finite float: an integer times a power of two. *)
Definition f32_value (x : f32) : option Q :=
  match x with
  | S754_zero _ => Some 0%Q
  | S754_finite s m e =>
      Some (inject_Z (if s then Zneg m else Zpos m) * (if 0 <=? e then inject_Z (2 ^ e) else / inject_Z (2 ^ (- e))))%Q
  | _ => None
  end.
(** A bit pattern the program can hold. *)
Definition is_f32 (x : f32) : Prop := valid_binary 24 128 x = true.
(** The float [x] is exactly the number [q]. *)
Definition exactly (x : f32) (q : Q) : Prop := is_f32 x /\ exists v, f32_value x = Some v /\ (v == q)%Q.
(** Finite, and its value is in the given range. *)
Definition between_q (a : Q) (x : f32) (b : Q) : Prop := is_f32 x /\ exists v, f32_value x = Some v /\ (a <= v <= b)%Q.

(** The float table [ps] holds what the exact table [qs] holds, and that is a table
    of positions on lines of at most 262144 pixels: 26.6 fixed-point numbers. *)
Definition position (f : f32) (q : Q) : Prop := exists z, 0 <= z <= 2 ^ 24 /\ (q == z # 64)%Q /\ f = fixed_f32 z.
Definition positions (ps : list f32) (qs : list Q) : Prop := Forall2 position ps qs.

(** Before-or-at in the direction in which the run is read. *)
Definition reads_f (r : srun) (a b : f32) : Prop := if sr_rtl r then f32_le b a = true else f32_le a b = true.

Fixpoint nondecreasing_f (l : list f32) : Prop :=
  match l with a :: (b :: _) as l' => f32_le a b = true /\ nondecreasing_f l' | _ => True end.

(** The line heights [hs] are the 26.6 numbers [zs], as those of a font's metrics. *)
Definition heights64 (hs : list f32) (zs : list Z) : Prop := Forall2 (fun h z => 0 <= z /\ exactly h (z # 64)) hs zs.
Definition sum64 (zs : list Z) : Z := fold_right Z.add 0 zs.
