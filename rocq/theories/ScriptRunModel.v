(** Model of [ScriptRunIterator].

    Oracles: [script] is ICU's [uscript_getScript] on valid code points; the text
    is given decoded, as the sequence of (code point, byte length) that the ICU
    macros [U8_GET] and [U8_FWD_1] produce from position 0 (a negative code point
    for an ill-formed sequence). *)
From Verif Require Import Base.
Open Scope Z_scope.

Notation item := (Z * Z)%type (only parsing).

(** unicode/uscript.h: USCRIPT_INVALID_CODE, USCRIPT_COMMON, USCRIPT_INHERITED. *)
Definition INVALID : Z := -1.
Definition COMMON : Z := 0.
Definition INHERITED : Z := 1.

(** src/script_run_iterator.hpp:34. *)
Definition DEPTH : Z := 32.

(** src/script_run_iterator.cpp:32-50 [pairedChars]. *)
Definition pairedChars : list Z :=
  [0x28; 0x29; 0x3c; 0x3e; 0x5b; 0x5d; 0x7b; 0x7d; 0xab; 0xbb; 0x2018; 0x2019; 0x201c; 0x201d;
   0x2039; 0x203a; 0x3008; 0x3009; 0x300a; 0x300b; 0x300c; 0x300d; 0x300e; 0x300f; 0x3010; 0x3011;
   0x3014; 0x3015; 0x3016; 0x3017; 0x3018; 0x3019; 0x301a; 0x301b].

(** src/script_run_iterator.cpp:173-206 [high_bit]. *)
Definition high_bit (value : Z) : Z :=
  if value <=? 0 then -32 else
  let '(value, bit) := if 2 ^ 16 <=? value then (Z.shiftr value 16, 16) else (value, 0) in
  let '(value, bit) := if 2 ^ 8 <=? value then (Z.shiftr value 8, bit + 8) else (value, bit) in
  let '(value, bit) := if 2 ^ 4 <=? value then (Z.shiftr value 4, bit + 4) else (value, bit) in
  let '(value, bit) := if 2 ^ 2 <=? value then (Z.shiftr value 2, bit + 2) else (value, bit) in
  if 2 ^ 1 <=? value then bit + 1 else bit.

(** src/script_run_iterator.cpp:220-226: the probe loop. *)
Fixpoint probe_loop (fuel : nat) (probe pairIndex ch : Z) : outcome Z :=
  if 1 <? probe then
    match fuel with
    | O => OutOfFuel
    | S fuel' =>
        let probe := Z.shiftr probe 1 in
        do c <- zget pairedChars (pairIndex + probe);
        probe_loop fuel' probe (if c <=? ch then pairIndex + probe else pairIndex) ch
    end
  else Ok pairIndex.

(** src/script_run_iterator.cpp:208-233 [get_pair_index]. *)
Definition get_pair_index (ch : Z) : outcome Z :=
  let count := Z.of_nat (length pairedChars) in
  let power := Z.shiftl 1 (high_bit count) in
  let extra := count - power in
  do c <- zget pairedChars extra;
  do i <- probe_loop (length pairedChars) power (if c <=? ch then extra else 0) ch;
  do c <- zget pairedChars i;
  Ok (if c =? ch then i else -1).

(** src/script_run_iterator.cpp:235-237 [script_is_same]. *)
Definition script_is_same (a b : Z) : bool := (a <=? INHERITED) || (b <=? INHERITED) || (a =? b).

(** src/script_run_iterator.hpp:36-47.  A field of a stack entry is [None] while
    uninitialised.  [si_rest] is the decoded text from [m_scriptLimit] on. *)
Record siter := {
  si_rest : list item;
  si_length : Z;
  si_limit : Z;
  si_cells : list (option Z * option Z);
  si_sp : Z;
  si_push : Z;
  si_fix : Z
}.

Definition text_length (text : list item) : Z := fold_right (fun it n => snd it + n) 0 text.

(** src/script_run_iterator.cpp:56-62. *)
Definition si_make (text : list item) : siter :=
  {| si_rest := text; si_length := text_length text; si_limit := 0;
     si_cells := repeat (None, None) 32; si_sp := -1; si_push := 0; si_fix := 0 |}.

Definition with_stack (s : siter) cells sp push fix_ : siter :=
  {| si_rest := si_rest s; si_length := si_length s; si_limit := si_limit s;
     si_cells := cells; si_sp := sp; si_push := push; si_fix := fix_ |}.

(** src/script_run_iterator.cpp:22-27: LIMIT_INC, INC1, DEC.  [PAREN_STACK_DEPTH]
    is a [size_t], so comparison and remainder are unsigned: a negative [sp] is
    not below the depth; 2^64 is a multiple of 32. *)
Definition LIMIT_INC (x : Z) : Z := if (0 <=? x) && (x <? DEPTH) then x + 1 else DEPTH.
Definition INC1 (sp : Z) : Z := (sp + 1) mod DEPTH.
Definition DEC (sp count : Z) : Z := (sp + DEPTH - count) mod DEPTH.

Definition cell_set (cells : list (option Z * option Z)) (i : Z) x : outcome (list (option Z * option Z)) :=
  if i <? 0 then UB else vset cells (Z.to_nat i) x.

(** Reading a member of the top entry. *)
Definition read_opt {A} (o : option A) : outcome A := match o with Some a => Ok a | None => UB end.
Definition top_pair (s : siter) : outcome Z := do e <- zget (si_cells s) (si_sp s); read_opt (fst e).
Definition top_script (s : siter) : outcome Z := do e <- zget (si_cells s) (si_sp s); read_opt (snd e).

(** src/script_run_iterator.cpp:135-142 [push]. *)
Definition si_do_push (s : siter) (pairIndex code : Z) : outcome siter :=
  let sp := INC1 (si_sp s) in
  do cells <- cell_set (si_cells s) sp (Some pairIndex, Some code);
  Ok (with_stack s cells sp (LIMIT_INC (si_push s)) (LIMIT_INC (si_fix s))).

(** src/script_run_iterator.cpp:144-162 [pop]. *)
Definition si_do_pop (s : siter) : siter :=
  if si_push s <=? 0 then s
  else
    let fix_ := if 0 <? si_fix s then si_fix s - 1 else si_fix s in
    let push := si_push s - 1 in
    let sp := DEC (si_sp s) 1 in
    with_stack s (si_cells s) (if push <=? 0 then -1 else sp) push fix_.

(** src/script_run_iterator.cpp:167-170: the loop of [fixup]; the counter ends
    at -1. *)
Fixpoint fixup_loop (n : nat) (cells : list (option Z * option Z)) (sp code : Z) : outcome (list (option Z * option Z)) :=
  match n with
  | O => Ok cells
  | S n' =>
      let sp := INC1 sp in
      do e <- zget cells sp;
      do cells <- cell_set cells sp (fst e, Some code);
      fixup_loop n' cells sp code
  end.
(** src/script_run_iterator.cpp:164-171 [fixup]. *)
Definition si_fixup (s : siter) (code : Z) : outcome siter :=
  do cells <- fixup_loop (Z.to_nat (si_fix s)) (si_cells s) (DEC (si_sp s) (si_fix s)) code;
  Ok (with_stack s cells (si_sp s) (si_push s) (Z.min (si_fix s) 0 - 1)).

(** src/script_run_iterator.cpp:97-99: pop until the pair matches. *)
Fixpoint pop_until (fuel : nat) (s : siter) (pi : Z) : outcome siter :=
  if 0 <? si_push s then
    do p <- top_pair s;
    if p =? pi then Ok s
    else match fuel with
         | O => OutOfFuel
         | S fuel' => pop_until fuel' (si_do_pop s) pi
         end
  else Ok s.

Section Next.
Variable script : Z -> Z.

(** [uscript_getScript(ch, &err)]: invalid code once [err] is set, and for a value
    that is not a code point, which sets [err]. *)
Definition get_script (err : bool) (ch : Z) : Z * bool :=
  if err || (ch <? 0) || (0x10ffff <? ch) then (INVALID, true) else (script ch, false).

(** src/script_run_iterator.cpp:77-126: the loop of [next].  [code] is the local
    [scriptCode], [err] the local [UErrorCode]. *)
Fixpoint next_loop (fuel : nat) (s : siter) (code : Z) (err : bool) : outcome (Z * siter) :=
  if si_limit s <? si_length s then
    match fuel, si_rest s with
    | O, _ => OutOfFuel
    | S _, [] => UB
    | S fuel', (ch, len) :: rest =>
        let '(sc, err) := get_script err ch in
        do pairIndex <- get_pair_index ch;
        let isClose := (0 <=? pairIndex) && negb (Z.land pairIndex 1 =? 0) in
        do (s, sc) <-
          (if 0 <=? pairIndex then
             if Z.land pairIndex 1 =? 0 then do s <- si_do_push s pairIndex code; Ok (s, sc)
             else
               do s <- pop_until (Z.to_nat (si_push s)) s (Z.land pairIndex (-2));
               if 0 <? si_push s then do t <- top_script s; Ok (s, t) else Ok (s, sc)
           else Ok (s, sc));
        if script_is_same code sc then
          do (s, code) <-
            (if (code <=? INHERITED) && (INHERITED <? sc)
             then do s <- si_fixup s sc; Ok (s, sc) else Ok (s, code));
          let s := if isClose then si_do_pop s else s in
          next_loop fuel'
            {| si_rest := rest; si_length := si_length s; si_limit := si_limit s + len;
               si_cells := si_cells s; si_sp := si_sp s; si_push := si_push s; si_fix := si_fix s |}
            code err
        else Ok (code, s)
    end
  else Ok (code, s).

(** src/script_run_iterator.cpp:64-133 [next]: [None] when the text is exhausted,
    otherwise (start, limit, script). *)
Definition si_next (s : siter) : outcome (option (Z * Z * Z) * siter) :=
  if si_length s <=? si_limit s then Ok (None, s)
  else
    do (code, s') <- next_loop (S (length (si_rest s))) (with_stack s (si_cells s) (si_sp s) (si_push s) 0) COMMON false;
    Ok (Some (si_limit s, si_limit s', code), s').

(** All runs of a text: [next] until it returns false. *)
Fixpoint all_runs (fuel : nat) (s : siter) : outcome (list (Z * Z * Z)) :=
  match fuel with
  | O => OutOfFuel
  | S fuel' =>
      do (r, s) <- si_next s;
      match r with
      | None => Ok []
      | Some run => do rest <- all_runs fuel' s; Ok (run :: rest)
      end
  end.
Definition script_runs (text : list item) : outcome (list (Z * Z * Z)) :=
  all_runs (S (length text)) (si_make text).
End Next.
