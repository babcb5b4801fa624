(** C10: packed colour conversions. *)
From Verif Require Import Base FloatModel ColorModel ColorProofs.
Open Scope Z_scope.

Theorem C10_round_trips :
  forall w : Z, 0 <= w < 2 ^ 32 ->
  to_argb (from_argb_uint w) = Ok w /\
  to_rgba (from_rgba_uint w) = Ok w /\
  (w < 2 ^ 24 -> to_abgr (from_abgr_uint w) = Ok w).
Proof.
  exact (fun w H => conj (argb_roundtrip w H) (conj (rgba_roundtrip w H)
           (fun H' => abgr_roundtrip w (conj (proj1 H) H')))).
Qed.
Print Assumptions C10_round_trips.

(** The abgr pair does not round-trip in general: 0x03FF0000 comes back changed,
    because the reader leaves the alpha bits in the red channel and the product
    with 255 then rounds down. *)
Theorem C10_abgr_round_trip_refuted :
  exists w : Z, 0 <= w < 2 ^ 32 /\ to_abgr (from_abgr_uint w) <> Ok w.
Proof. exact abgr_no_roundtrip. Qed.
Print Assumptions C10_abgr_round_trip_refuted.

(** Every channel of the argb and rgba readers lies in [0,1]; for abgr only when
    the alpha byte is zero. *)
Theorem C10_channels_in_unit_range :
  forall w : Z, 0 <= w < 2 ^ 32 ->
  (forall c, c = from_argb_uint w \/ c = from_rgba_uint w \/ (w < 2 ^ 24 /\ c = from_abgr_uint w) ->
   forall x, In x [c_r c; c_g c; c_b c; c_a c] -> f32_le f32_0 x = true /\ f32_le x f32_1 = true).
Proof. exact channels_in_unit. Qed.
Print Assumptions C10_channels_in_unit_range.

(** The abgr reader does not mask the red channel: whenever the alpha byte is
    non-zero the red component exceeds 1. *)
Theorem C10_abgr_red_refuted :
  forall w : Z, 2 ^ 24 <= w < 2 ^ 32 -> f32_le (c_r (from_abgr_uint w)) f32_1 = false.
Proof. exact abgr_not_unit. Qed.
Print Assumptions C10_abgr_red_refuted.

Example C10_example : to_rgba (from_rgba_uint 3735928559) = Ok 3735928559.
Proof. vm_compute. reflexivity. Qed.
