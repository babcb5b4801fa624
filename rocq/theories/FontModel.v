(** Model of [FontRegistry]: registration, look-up, fallback and the per-thread cache.

    Oracles: the file mapping function, whether a mapped file loads as a font and
    which code points it covers (FreeType, HarfBuzz), case and combining class (ICU),
    decoding of the text (UText).
    Simplifications: the hash maps are association lists searched from the front; the
    locks are the subject of LockModel.v; the functions below run while they are held. *)
From Verif Require Import Base BuilderModel.
Open Scope Z_scope.

(** ** Names and handles *)
Definition name := list Z.
Definition name_eqb (a b : name) : bool := if list_eq_dec Z.eq_dec a b then true else false.
Fixpoint lookup {V} (n : name) (m : list (name * V)) : option V :=
  match m with [] => None | (k, v) :: m' => if name_eqb k n then Some v else lookup n m' end.

(** src/font_common.hpp:26-27, 30, 52: handles have 16 bits, all ones is invalid. *)
Definition u16 (n : nat) : Z := Z.of_nat n mod 2 ^ 16.
Definition INVALID : Z := 65535.
(** src/font_common.hpp:51-58 [FaceDataHandle]: the default is Regular, Normal. *)
Definition no_face : face_handle := {| fh_handle := INVALID; fh_weight := 3; fh_style := 0 |}.
(** src/font_common.hpp:68-70 [valid]. *)
Definition face_valid (f : face_handle) : bool := negb (fh_handle f =? INVALID).

(** src/font_common.hpp:7-23: numbers of weights and styles. *)
Definition WEIGHTS : nat := 9.
Definition STYLES : nat := 2.
Definition REGULAR : Z := 3.
Definition NORMAL : Z := 0.

(** src/font_registry.hpp:11-28 [FontFaceCreateInfo], [FontFamilyCreateInfo];
    [None] is a null [pFaces]. *)
Record face_desc := { fd_name : name; fd_uri : name; fd_weight : Z; fd_style : Z }.
Record family_desc := {
  fy_name : name; fy_scripts : list Z; fy_linked : list name; fy_fallback : list name; fy_faces : option (list face_desc)
}.

(** src/font_registry.cpp:54-68 [FamilyData]. *)
Record family := {
  fa_lookup : list (list face_handle); fa_linked : list Z; fa_fallback : list Z; fa_scripts : list bool; fa_init : bool
}.
(** src/font_registry.cpp:173-177: the four tables; a face has its mapped file. *)
Record registry := {
  rg_faces : list (name * option Z); rg_face_names : list (name * face_handle);
  rg_families : list family; rg_family_names : list (name * Z)
}.

(** src/font_registry.hpp:30-35 [FontRegistryError], and an exception. *)
Inductive reg_result := RNone | RAlready | RNoFaces | RThrew.

Section Registry.
(** [USCRIPT_CODE_LIMIT]. *)
Variable script_limit : nat.
(** [pfnMapFile]: the answer to the call that maps the [n]-th face. *)
Variable map_file : nat -> name -> option Z.

Definition rg_empty : registry := {| rg_faces := []; rg_face_names := []; rg_families := []; rg_family_names := [] |}.
Definition fa_empty : family :=
  {| fa_lookup := repeat (repeat no_face STYLES) WEIGHTS; fa_linked := []; fa_fallback := [];
     fa_scripts := repeat false script_limit; fa_init := false |}.

(** [g_familyData[handle]]. *)
Definition get_fam (r : registry) (h : Z) : outcome family := zget (rg_families r) h.
Definition put_fam (r : registry) (h : Z) (f : family) : registry :=
  {| rg_faces := rg_faces r; rg_face_names := rg_face_names r;
     rg_families := list_set (rg_families r) (Z.to_nat h) f; rg_family_names := rg_family_names r |}.

(** src/font_registry.cpp:203-211 [get_family]. *)
Definition get_family (r : registry) (n : name) : Z :=
  match lookup n (rg_family_names r) with Some h => h | None => INVALID end.

(** src/font_registry.cpp:550-560 [get_or_add_family]. *)
Definition get_or_add_family (r : registry) (n : name) : registry * Z :=
  match lookup n (rg_family_names r) with
  | Some h => (r, h)
  | None =>
      let h := u16 (length (rg_families r)) in
      ({| rg_faces := rg_faces r; rg_face_names := rg_face_names r;
          rg_families := rg_families r ++ [fa_empty]; rg_family_names := rg_family_names r ++ [(n, h)] |}, h)
  end.

(** src/font_registry.cpp:562-577 [get_or_add_face]. *)
Definition get_or_add_face (r : registry) (d : face_desc) : registry * face_handle :=
  match lookup (fd_name d) (rg_face_names r) with
  | Some h => (r, h)
  | None =>
      let k := length (rg_faces r) in
      let h := {| fh_handle := u16 k; fh_weight := fd_weight d; fh_style := fd_style d |} in
      ({| rg_faces := rg_faces r ++ [(fd_name d, map_file k (fd_uri d))];
          rg_face_names := rg_face_names r ++ [(fd_name d, h)];
          rg_families := rg_families r; rg_family_names := rg_family_names r |}, h)
  end.

(** src/font_registry.cpp:328-330: [bitset::set] throws outside of the set; the bits
    set so far stay.  The flag says that it did not throw. *)
Fixpoint set_scripts (bits : list bool) (codes : list Z) : list bool * bool :=
  match codes with
  | [] => (bits, true)
  | c :: codes' => if (0 <=? c) && (c <? Z.of_nat (length bits)) then set_scripts (list_set bits (Z.to_nat c) true) codes' else (bits, false)
  end.

(** src/font_registry.cpp:339-342, 347-350: the handles of the names, adding those
    that are new. *)
Fixpoint add_families (r : registry) (ns : list name) : registry * list Z :=
  match ns with
  | [] => (r, [])
  | n :: ns' => let '(r, h) := get_or_add_family r n in let '(r, hs) := add_families r ns' in (r, h :: hs)
  end.

(** [lookup[weight][style]] of a two-dimensional array. *)
Definition slot (t : list (list face_handle)) (w s : Z) : outcome face_handle := do row <- zget t w; zget row s.
Definition set_slot (t : list (list face_handle)) (w s : Z) (f : face_handle) : outcome (list (list face_handle)) :=
  do row <- zget t w; do _ <- zget row s; Ok (list_set t (Z.to_nat w) (list_set row (Z.to_nat s) f)).

(** src/font_registry.cpp:362-374: the loop over the faces. *)
Fixpoint add_faces (r : registry) (t : list (list face_handle)) (default : face_handle) (fs : list face_desc)
  : outcome (registry * list (list face_handle) * face_handle) :=
  match fs with
  | [] => Ok (r, t, default)
  | d :: fs' =>
      let '(r, f) := get_or_add_face r d in
      do t <- set_slot t (fd_weight d) (fd_style d) f;
      let default :=
        if face_valid f && (negb (face_valid default) || ((fd_weight d =? REGULAR) && (fd_style d =? NORMAL))) then f else default in
      add_faces r t default fs'
  end.
(** src/font_registry.cpp:376-383. *)
Definition fill (t : list (list face_handle)) (default : face_handle) : list (list face_handle) :=
  map (map (fun f => if face_valid f then f else default)) t.

(** src/font_registry.cpp:317-387 [register_family]. *)
Definition register_family (r : registry) (d : family_desc) : outcome (registry * reg_result) :=
  let '(r, h) := get_or_add_family r (fy_name d) in
  do f <- get_fam r h;
  if fa_init f then Ok (r, RAlready)
  else
    let '(bits, fine) := match fy_scripts d with [] => (repeat true script_limit, true) | _ => set_scripts (fa_scripts f) (fy_scripts d) end in
    let r := put_fam r h {| fa_lookup := fa_lookup f; fa_linked := fa_linked f; fa_fallback := fa_fallback f; fa_scripts := bits; fa_init := fa_init f |} in
    if negb fine then Ok (r, RThrew)
    else
      let '(r, linked) := add_families r (fy_linked d) in
      let '(r, fallback) := add_families r (fy_fallback d) in
      do f <- get_fam r h;
      match fy_faces d with
      | None =>
          Ok (put_fam r h {| fa_lookup := fa_lookup f; fa_linked := []; fa_fallback := []; fa_scripts := repeat false script_limit; fa_init := fa_init f |}, RNoFaces)
      | Some fs =>
          do (r, t, default) <- add_faces r (fa_lookup f) no_face fs;
          Ok (put_fam r h {| fa_lookup := fill t default; fa_linked := fa_linked f ++ linked; fa_fallback := fa_fallback f ++ fallback;
                             fa_scripts := fa_scripts f; fa_init := true |}, RNone)
      end.

(** src/font_registry.cpp:61-63, 217-221 [get_face_data_handle]: family, weight, style. *)
Definition get_face_data_handle (r : registry) (h w s : Z) : outcome face_handle := do f <- get_fam r h; slot (fa_lookup f) w s.

(** Registrations one after the other. *)
Fixpoint registrations (r : registry) (ds : list family_desc) : outcome (registry * list reg_result) :=
  match ds with
  | [] => Ok (r, [])
  | d :: ds' => do (r, e) <- register_family r d; do (r, es) <- registrations r ds'; Ok (r, e :: es)
  end.

(** ** Fallback *)

(** src/font_registry.cpp:579-595 [get_font_for_script]: [bitset::test] outside of the
    set is taken as undefined (it throws). *)
Fixpoint linked_face (r : registry) (hs : list Z) (w s script : Z) : outcome (option face_handle) :=
  match hs with
  | [] => Ok None
  | h :: hs' =>
      do f <- get_fam r h;
      do has <- (if fa_init f then zget (fa_scripts f) script else Ok false);
      if has then omap Some (slot (fa_lookup f) w s) else linked_face r hs' w s script
  end.
Definition get_font_for_script (r : registry) (h w s script : Z) : outcome face_handle :=
  do f <- get_fam r h;
  do has <- zget (fa_scripts f) script;
  if has then slot (fa_lookup f) w s
  else do l <- linked_face r (fa_linked f) w s script;
       match l with Some x => Ok x | None => slot (fa_lookup f) w s end.

(** Whether [get_font_data] on a face gives a valid font; whether it has a code
    point. *)
Variable loads : Z -> bool.
Variable covers : Z -> Z -> bool.
(** [get_font_data]: [g_faces[handle]] must exist. *)
Definition try_load (r : registry) (f : face_handle) : outcome bool := do _ <- zget (rg_faces r) (fh_handle f); Ok (loads (fh_handle f)).

(** src/font_registry.cpp:613-629: the loop over the fallback families. *)
Fixpoint fallback_face (r : registry) (hs : list Z) (w s c : Z) : outcome (option face_handle) :=
  match hs with
  | [] => Ok None
  | h :: hs' =>
      do fam <- get_fam r h;
      if negb (fa_init fam) then fallback_face r hs' w s c
      else
        do f <- slot (fa_lookup fam) w s;
        do ok <- try_load r f;
        if ok && covers (fh_handle f) c then Ok (Some f) else fallback_face r hs' w s c
  end.
(** src/font_registry.cpp:597-632 [find_compatible_font]. *)
Definition find_compatible_font (r : registry) (base : face_handle) (hs : list Z) (w s c : Z) : outcome (option face_handle) :=
  if negb (face_valid base) then Ok None
  else
    do ok <- try_load r base;
    if negb ok then Ok None
    else if covers (fh_handle base) c then Ok (Some base)
    else fallback_face r hs w s c.

(** [u_getCombiningClass] is not zero; [UCHAR_CHANGES_WHEN_UPPERCASED]. *)
Variables (combining lower : Z -> bool).
(** src/font_registry.cpp:440-466 [calc_case_run_limit]: the text as code points, each
    with its index. *)
Fixpoint case_run (state : option bool) (chars : list (Z * Z)) (offset limit : Z) : Z * bool :=
  match chars with
  | [] => (limit, match state with Some b => b | None => true end)
  | (i, c) :: cs =>
      if combining c then case_run state cs offset limit
      else
        let upper := negb (lower c) in
        let run := match state with Some b => b | None => upper end in
        if Bool.eqb run upper then case_run (Some run) cs offset limit else (offset + i, run)
  end.

(** src/font_registry.cpp:499-509: the first face for a character, and the characters
    after it. *)
Fixpoint first_face (r : registry) (base : face_handle) (hs : list Z) (w s : Z) (chars : list (Z * Z))
  : outcome (option (face_handle * list (Z * Z))) :=
  match chars with
  | [] => Ok None
  | (i, c) :: cs =>
      do f <- find_compatible_font r base hs w s c;
      match f with Some f => Ok (Some (f, cs)) | None => first_face r base hs w s cs end
  end.
(** src/font_registry.cpp:533-547. *)
Fixpoint extend (f : face_handle) (offset limit : Z) (chars : list (Z * Z)) : Z :=
  match chars with [] => limit | (i, c) :: cs => if covers (fh_handle f) c then extend f offset limit cs else offset + i end.

(** src/font_registry.cpp:468-548 [get_sub_font]; [chars] are those of the text between
    the offset and the limit.  Result: the font and the new offset. *)
Definition get_sub_font (r : registry) (h w s size : Z) (chars : list (Z * Z)) (offset limit script : Z) (smallcaps subscript superscript : bool)
  : outcome (ssfont * Z) :=
  let '(limit, synthSmall) :=
    if smallcaps then let '(l, upper) := case_run None chars offset limit in (l, negb upper) else (limit, false) in
  do base <- get_font_for_script r h w s script;
  do fam <- get_fam r h;
  do found <- first_face r base (fa_fallback fam) w s chars;
  let font f := {| sf_face := f; sf_size := size; sf_weight := w; sf_style := s;
                   sf_sub := subscript; sf_super := superscript; sf_small := smallcaps;
                   sf_syn_sub := subscript; sf_syn_super := superscript; sf_syn_small := synthSmall |} in
  match found with
  | None => Ok (font base, limit)
  | Some (f, rest) => Ok (font f, extend f offset limit rest)
  end.

(** src/layout_builder.cpp:263-280: the calls made for one run of a font and script;
    [text a b] is the decoded text between two offsets. *)
Fixpoint sub_fonts (fuel : nat) (r : registry) (h w s size : Z) (text : Z -> Z -> list (Z * Z)) (offset limit script : Z) (smallcaps subscript superscript : bool)
  : outcome (list (Z * Z * ssfont)) :=
  match fuel with
  | O => OutOfFuel
  | S fuel =>
      if offset <? limit then
        do (font, off) <- get_sub_font r h w s size (text offset limit) offset limit script smallcaps subscript superscript;
        do rest <- sub_fonts fuel r h w s size text off limit script smallcaps subscript superscript;
        Ok ((offset, off, font) :: rest)
      else Ok []
  end.

(** src/font_registry.cpp:223-234 [get_default_single_script_font]. *)
Definition get_default_single_script_font (r : registry) (h w s size : Z) : outcome ssfont :=
  do f <- get_face_data_handle r h w s;
  Ok {| sf_face := f; sf_size := size; sf_weight := w; sf_style := s; sf_sub := false; sf_super := false; sf_small := false;
        sf_syn_sub := false; sf_syn_super := false; sf_syn_small := false |}.
End Registry.

(** ** The cache of a thread *)

(** src/font_registry.cpp:70-151 [FontDataOwner]: its own record of the size, the size
    FreeType was asked for, the size HarfBuzz last took its scale from, and the stored
    advance of the space; [ow_advances] is [advanceCache] of src/harfbuzz_font.cpp:68. *)
Record owner := { ow_size : Z; ow_ft : Z; ow_hb : Z; ow_space : Z; ow_advances : list (Z * Z) }.
(** What the caller gets: the sizes in force when it is returned, and the space. *)
Record font_data := { dt_ft : Z; dt_hb : Z; dt_space : Z }.

Section Cache.
(** [FT_Get_Advance]: face, size, glyph; the glyph of the space. *)
Variable ft_advance : Z -> Z -> Z -> Z.
Variable space_glyph : Z -> Z.
(** Whether the file of a face was mapped and loads. *)
Variable can_load : Z -> bool.

Definition cache := list (Z * owner).
Fixpoint cache_find (h : Z) (c : cache) : option owner :=
  match c with [] => None | (k, o) :: c' => if k =? h then Some o else cache_find h c' end.
Fixpoint cache_put (h : Z) (o : owner) (c : cache) : cache :=
  match c with [] => [(h, o)] | (k, x) :: c' => if k =? h then (k, o) :: c' else (k, x) :: cache_put h o c' end.

Fixpoint advance_find (g : Z) (l : list (Z * Z)) : option Z :=
  match l with [] => None | (k, v) :: l' => if k =? g then Some v else advance_find g l' end.

(** src/font_registry.cpp:137-150 [resize] with src/harfbuzz_font.cpp:131-145
    [harfbuzz_font_mark_changed], which takes the scale and clears the advances.
    [FT_Request_Size] is taken to succeed. *)
Definition resize (o : owner) (n : Z) : owner :=
  if ow_size o =? n then o else {| ow_size := n; ow_ft := n; ow_hb := n; ow_space := ow_space o; ow_advances := [] |}.

(** src/harfbuzz_font.cpp:320-366 [hb_ft_get_glyph_h_advances] for one glyph (the
    rounding of the answer is left to the oracle; entries are not evicted). *)
Definition glyph_advance (h : Z) (o : owner) (g : Z) : Z * owner :=
  match advance_find g (ow_advances o) with
  | Some v => (v, o)
  | None =>
      let v := ft_advance h (ow_ft o) g in
      (v, {| ow_size := ow_size o; ow_ft := ow_ft o; ow_hb := ow_hb o; ow_space := ow_space o; ow_advances := (g, v) :: ow_advances o |})
  end.

(** src/font_registry.cpp:89-101: what moving keeps of an owner: not its size. *)
Definition moved (o : owner) : owner :=
  {| ow_size := 0; ow_ft := ow_ft o; ow_hb := ow_hb o; ow_space := ow_space o; ow_advances := ow_advances o |}.

Definition data_of (o : owner) : font_data := {| dt_ft := ow_ft o; dt_hb := ow_hb o; dt_space := ow_space o |}.

(** src/font_registry.cpp:249-315 [get_font_data]; [size] is the nominal, [eff] the
    effective size; a new face has no size yet when HarfBuzz takes its scale (0), and
    the pair is moved into the map. *)
Definition get_font_data (c : cache) (h size eff : Z) : cache * option font_data :=
  match cache_find h c with
  | Some o => let o := resize o eff in (cache_put h o c, Some (data_of o))
  | None =>
      if can_load h then
        let o := {| ow_size := size; ow_ft := eff; ow_hb := 0; ow_space := 0; ow_advances := [] |} in
        let '(v, o) := glyph_advance h o (space_glyph h) in
        let o := {| ow_size := ow_size o; ow_ft := ow_ft o; ow_hb := ow_hb o; ow_space := v; ow_advances := ow_advances o |} in
        (cache_put h (moved (moved o)) c, Some (data_of o))
      else (c, None)
  end.

(** A history of one thread: requests, and glyph advances read from the font. *)
Inductive cache_op := QGet (h size eff : Z) | QAdvance (h g : Z).
Inductive cache_answer := AData (d : option font_data) | AAdvance (v : option Z).
Definition cache_step (c : cache) (o : cache_op) : cache * cache_answer :=
  match o with
  | QGet h size eff => let '(c, d) := get_font_data c h size eff in (c, AData d)
  | QAdvance h g => match cache_find h c with
                    | Some o => let '(v, o) := glyph_advance h o g in (cache_put h o c, AAdvance (Some v))
                    | None => (c, AAdvance None)
                    end
  end.
Fixpoint cache_steps (c : cache) (os : list cache_op) : cache :=
  match os with [] => c | o :: os' => cache_steps (fst (cache_step c o)) os' end.
End Cache.
