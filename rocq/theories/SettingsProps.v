(** C93: the settings of a text box. *)
From Coq Require Import Lia.
From Verif Require Import Base BaseFacts FloatModel PackingModel LayoutModel LayoutSpec LayoutProofs CursorModel CursorSpec TextBoxModel TextBoxSpec TextBoxUtfProofs TextBoxLayoutProofs TextBoxProofs
  TextBoxExample TextBoxProps SettingsModel BlinkSpec SettingsSpec SettingsProofs.
Open Scope Z_scope.

(** A box as made, and any history of calls of its setters and of events.  Every event does what
    C44 says with the layout under the settings of that moment, every setter changes its setting
    and neither text, cursor, selection nor focus.  At the end, and so at every moment, the box
    shows its text laid out under its present settings, and the caret of its cursor there.
    Full statement: for every history.  Proved: for plain text and the histories of C44. *)
Theorem C93_settings_partial : forall builder strip tall B following preceding decode white clip es,
  good_stops B following preceding -> (forall f w h x y, good_layouts (builder f w h x y false) B) ->
  match clip with Some s => valid_utf8 s | None => True end ->
  may_all_happen builder B following decode white (shows [] true true) new_settings clip es ->
  exists b s clip', occur builder strip tall following preceding decode white (made_box, new_settings, clip) es = Ok (b, s, clip') /\
    happen builder B following decode white (shows [] true true) new_settings clip es (view_of b) s clip' /\ sound (view_of b) /\ up_to_date builder tall b s.
Proof.
  intros builder strip tall B following preceding decode white clip es GS GL CV M.
  assert (K : kept builder tall made_box new_settings).
  { split; [reflexivity|]. split; [|reflexivity]. split; [exact valid_nil|]. split; [reflexivity|]. split; exact (seam [] [] valid_nil). }
  destruct (occur_ok builder strip tall B following preceding decode white GS GL es made_box new_settings clip K CV M) as (b & s & clip' & E & K' & H).
  exists b, s, clip'. split; [exact E|]. split; [exact H|]. split; [apply K'|]. exact (kept_up _ _ _ _ K').
Qed.
Print Assumptions C93_settings_partial.

(** A builder that puts the line of [e_build] at the top, middle or bottom. *)
Definition s_builder (f : Z) (w h : Q) (x : xalign) (y : yalign) (rich : bool) (t : list Z) : layout :=
  layout_of (e_doc (if rich then e_strip t else t)) (match y with YTop => 0 | YCenter => h / 2 | YBottom => h end)%Q.
Definition s_occur := occur s_builder e_strip (fun _ => 12%Q) e_following e_preceding e_decode e_white.
Example C93_components : forall f w h x y, good_layouts (s_builder f w h x y false) (fun t => on_char t).
Proof.
  intros f w h x y t V NE S. destruct (e_layouts t V NE S) as (d & y0 & _). eexists (e_doc t), _. assert (SP : 0 < size t) by (unfold size; destruct t; [congruence|cbn [length]; lia]).
  split; [apply e_doc_ok|]. split; [apply stored_layout; apply e_doc_ok|]. split; [discriminate|]. split; [constructor; [discriminate|constructor]|]. split.
  - constructor; [|constructor]. unfold run_ok, logical_chars, run_chars. cbn. split; [lia|]. split; [lia|]. split; [lia|]. split; [constructor; [lia|constructor]|]. split; [reflexivity|exact I].
  - constructor; [|constructor]. split.
    + constructor; [exact (seam [] t V)|constructor].
    + cbn [e_run sr_end]. pose proof (seam t [] valid_nil) as H. rewrite app_nil_r in H. exact H.
Qed.
(** "hé", then a font and a size, a click behind the text; the text goes to the right and to the
    bottom. *)
Definition s_history := [EDo (CReplace he); EFont 1; ESize 100 40; EDo (CPress 90 5 false 0); EX XRight; EY YBottom; EWrapped false].
Example C93_used : may_all_happen s_builder (fun t => on_char t) e_following e_decode e_white (shows [] true true) new_settings None s_history /\
  exists b s, s_occur (made_box, new_settings, None) s_history = Ok (b, s, None) /\ pos (view_of b) = 3 /\ (ci_x (tb_info b) == 100)%Q /\ (ci_y (tb_info b) == 40)%Q.
Proof.
  split; [|do 2 eexists; split; [vm_compute; reflexivity|]; repeat split; vm_compute; reflexivity].
  assert (V : valid_utf8 he) by (exists [104; 233]; split; [repeat constructor; unfold scalar; lia|reflexivity]).
  cbn [may_all_happen s_history]. split.
  { split; [|exact I]. split; [exact V|]. split; [reflexivity|]. split; exact (seam [] he V). }
  intros v1 s1 c1 (_ & D1 & _ & T1 & _) _. split; [exact I|]. intros v2 s2 c2 ((F2 & _) & -> & ->) _. split; [exact I|]. intros v3 s3 c3 ((F3 & _) & -> & ->) _.
  split; [split; [cbn; rewrite T1; discriminate|rewrite F3, F2; discriminate]|]. intros; split; [exact I|]. intros; split; [exact I|]. intros; split; [exact I|]. intros; exact I.
Qed.

(** A box that is not selectable lets its text be selected. *)
Theorem C93_selectable_refuted : exists b clip,
  e_steps (fresh true true, None) [CSelectable false; CReplace he; CPress 0 5 false 0; KAll; KCopy] = Ok (b, clip) /\
  tb_selectable b = false /\ first (view_of b) = 0 /\ last (view_of b) = 3 /\ clip = Some he.
Proof. do 2 eexists. split; [vm_compute; reflexivity|]. repeat split; vm_compute; reflexivity. Qed.
Print Assumptions C93_selectable_refuted.

(** A box for a single line takes more lines from the clipboard. *)
Theorem C93_single_line_refuted : exists b clip,
  e_steps (fresh true false, Some [97; 10; 98]) [CReplace he; CPress 0 5 false 0; KPaste] = Ok (b, clip) /\
  tb_multi b = false /\ tb_text b = [97; 10; 98] ++ he.
Proof. do 2 eexists. split; [vm_compute; reflexivity|]. repeat split; vm_compute; reflexivity. Qed.
Print Assumptions C93_single_line_refuted.
