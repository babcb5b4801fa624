(** C102: hash tables are dictionaries. *)
From Verif Require Import Base AtlasModel MsdfModel HashModel HashSpec HashProofs.
Set Implicit Arguments.
Open Scope Z_scope.

(** The glyphs and strokes of the atlas: whatever was stored and looked up before and however
    the table grows, a lookup finds the first value stored under its key, and nothing if there
    is none. *)
Theorem C102_glyphs : forall V policy (ops : list (table_op V atlas_key)), (forall s n, 0 < policy s n)%nat ->
  table_run (fun k => k) atlas_hash atlas_hash atlas_key_eqb policy [] ops = answers atlas_key_eqb [] ops.
Proof.
  intros V policy ops P. apply run_answers; [exact atlas_key_iff|exact atlas_key_iff|reflexivity|exact P|apply empty_inv].
Qed.
Print Assumptions C102_glyphs.
(** The same for the fields of the other atlas. *)
Theorem C102_fields : forall V policy (ops : list (table_op V field_key)), (forall s n, 0 < policy s n)%nat ->
  table_run (fun k => k) field_hash field_hash field_key_eqb policy [] ops = answers field_key_eqb [] ops.
Proof.
  intros V policy ops P. apply run_answers; [exact field_key_iff|exact field_key_iff|reflexivity|exact P|apply empty_inv].
Qed.
Print Assumptions C102_fields.
(** Keys are the same when all their parts are. *)
Theorem C102_keys : (forall a b : atlas_key, atlas_key_eqb a b = true <-> a = b) /\ (forall a b : field_key, field_key_eqb a b = true <-> a = b).
Proof. split; [exact atlas_key_iff|exact field_key_iff]. Qed.
Print Assumptions C102_keys.

(** Names of faces and families: the table of strings may be asked with a string, a view or a
    pointer, and finds what was stored under the same characters.  C++ promises that strings
    and views of the same characters have the same hash value. *)
Theorem C102_names : forall V policy view_hash string_hash (ops : list (table_op V text_arg)),
  (forall s, string_hash s = view_hash s) -> (forall s n, 0 < policy s n)%nat ->
  table_run text_of string_hash (text_hash view_hash string_hash) (fun k a => bytes_eqb k (text_of a)) policy [] ops
  = answers (fun a b => bytes_eqb (text_of a) (text_of b)) [] ops.
Proof.
  intros V policy vh sh ops Std P. apply run_answers; [intros k a; apply bytes_iff|intros a b; apply bytes_iff| |exact P|apply empty_inv].
  intros [s|s|m]; cbn; [reflexivity|apply Std|apply Std].
Qed.
Print Assumptions C102_names.

(** No two glyphs of the field atlas have one hash value, so none slows down another by
    more than the size of the table. *)
Theorem C102_apart : forall glyph face glyph' face', 0 <= glyph < 2 ^ 32 -> 0 <= glyph' < 2 ^ 32 -> 0 <= face < 2 ^ 16 -> 0 <= face' < 2 ^ 16 ->
  field_hash (FieldKey glyph face) = field_hash (FieldKey glyph' face') -> glyph = glyph' /\ face = face'.
Proof. intros g f g' f' G G' F F' E. exact (@step_apart HASH_BASE g g' f f' G G' F F' E). Qed.
Print Assumptions C102_apart.

(** Three glyphs in a table that grows from one bucket to two and three: collisions and moves
    to other buckets. *)
Definition grow (size now : nat) : nat := S size.
Definition k1 : atlas_key := GlyphKey 48 36 1 3 0.
Definition k2 : atlas_key := GlyphKey 48 37 1 3 0.
Definition k3 : atlas_key := StrokeKey 48 36 1 3 0.
Example glyphs_case :
  table_run (fun k => k) atlas_hash atlas_hash atlas_key_eqb grow [] [Find _ k1; Emplace k1 10; Emplace k2 20; Find _ k1; Emplace k1 11; Emplace k3 30; Find _ k1; Find _ k2; Find _ k3; Find _ (GlyphKey 48 36 1 3 1)]
  = [None; Some 10; Some 10; Some 20; Some 30; None] /\ atlas_hash k1 = atlas_hash k3.
Proof. vm_compute. auto. Qed.
Definition sum (s : list Z) : Z := fold_left Z.add s 0.
Example names_case :
  table_run text_of sum (text_hash sum sum) (fun k a => bytes_eqb k (text_of a)) grow []
    [Emplace (View [65; 66]) 1; Emplace (View [66; 65]) 2; Find _ (Pointer [66; 65; 0; 65]); Find _ (Owned [65; 66]); Find _ (View [65])]
  = [Some 2; Some 1; None].
Proof. vm_compute. reflexivity. Qed.
