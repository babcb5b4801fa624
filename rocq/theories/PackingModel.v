(** Model of the bit-packed handles: cursor positions and font faces. *)
From Verif Require Import Base.
Open Scope Z_scope.

(** src/cursor_position.hpp:7-10 [CursorAffinity]. *)
Inductive affinity := ADefault | AOpposite.
Definition affinity_eqb (a b : affinity) : bool :=
  match a, b with ADefault, ADefault | AOpposite, AOpposite => true | _, _ => false end.

(** src/cursor_position.hpp:13-15.  The packed word [data] is a 32-bit unsigned
    value, i.e. a [Z] in [0, 2^32). *)
Definition affinity_mask : Z := Z.shiftl 1 31.
Definition position_mask : Z := 2 ^ 32 - 1 - affinity_mask.
Definition invalid_value : Z := 2 ^ 32 - 1.

(** src/cursor_position.hpp:19-21 [set_position]. *)
Definition cp_set_position (data pos : Z) : Z :=
  Z.lor (Z.land data affinity_mask) (Z.land (wrap32 pos) position_mask).

(** src/cursor_position.hpp:23-30 [set_affinity]. *)
Definition cp_set_affinity (data : Z) (a : affinity) : Z :=
  match a with
  | AOpposite => Z.lor data (Z.shiftl 1 31)
  | ADefault => Z.land data position_mask
  end.

(** src/cursor_position.hpp:32-34 [set_invalid]. *)
Definition cp_set_invalid (data : Z) : Z := invalid_value.

(** src/cursor_position.hpp:36-38 [get_position]. *)
Definition cp_get_position (data : Z) : Z := to_int32 (Z.land data position_mask).

(** src/cursor_position.hpp:40-42 [get_affinity] ([data >> 31] is 0 or 1). *)
Definition cp_get_affinity (data : Z) : affinity :=
  if Z.shiftr data 31 =? 0 then ADefault else AOpposite.

(** src/cursor_position.hpp:44-46 [is_valid]; 48-50 [operator==]. *)
Definition cp_is_valid (data : Z) : bool := negb (data =? invalid_value).
Definition cp_eqb (d1 d2 : Z) : bool := d1 =? d2.

(** The aggregate initialisation [CursorPosition{pos}] used throughout
    layout_info.cpp and text_box.cpp stores the position with default affinity. *)
Definition cp_make (pos : Z) : Z := wrap32 pos.

Inductive cp_op := CSetPosition (pos : Z) | CSetAffinity (a : affinity).
Definition cp_step (d : Z) (o : cp_op) : Z :=
  match o with
  | CSetPosition p => cp_set_position d p
  | CSetAffinity a => cp_set_affinity d a
  end.

(** src/font_common.hpp:30-44 [FontFamily]. *)
Definition invalid_family : Z := 2 ^ 16 - 1.
Definition family_valid (h : Z) : bool := negb (h =? invalid_family).

(** src/font.hpp:42-44 [FontFace::make_handle].  [family.handle << 16] is an
    [int] shift whose result is converted to 32 bits (C++20 semantics). *)
Definition ff_make_handle (family weight style : Z) : Z :=
  wrap32 (Z.lor (Z.lor (Z.shiftl family 16) (Z.shiftl weight 1)) style).

(** src/font.hpp:20-34. *)
Definition ff_get_family (h : Z) : Z := (Z.shiftr h 16) mod 2 ^ 16.
Definition ff_get_weight (h : Z) : Z := Z.land (Z.shiftr h 1) 15.
Definition ff_get_style (h : Z) : Z := Z.land h 1.
Definition ff_valid (h : Z) : bool := family_valid (ff_get_family h).
