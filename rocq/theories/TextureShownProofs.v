From Coq Require Import ZArith QArith Qabs Lqa Lia.
From Verif Require Import Base BaseFacts FloatModel ColorModel ColorProofs BitmapModel BuilderModel FontSizeModel AtlasSpec AtlasModel AtlasProps GlModel ShaderModel ShaderSpec ShaderProofs ShaderProps.
From Verif Require Import TextureModel TextureSpec TextureProofs TextureByteProofs.
Open Scope Q_scope.

Lemma scaled_byte n a c : (0 < a <= 255)%Z -> (100 * Z.abs (n * a - 255 * c) <= 101 * a)%Z ->
  Qabs (inject_Z n / 255 * (inject_Z a / 255) - inject_Z c / 255) <= 101 # 25500.
Proof.
  intros A B.
  assert (E : inject_Z n / 255 * (inject_Z a / 255) - inject_Z c / 255 == inject_Z (n * a - 255 * c) / 65025).
  { unfold Zminus. rewrite inject_Z_plus, inject_Z_opp, !inject_Z_mult. change (inject_Z 255) with 255. field. }
  rewrite E. apply Qabs_Qle_condition.
  assert (L : inject_Z (-25755) <= inject_Z (100 * (n * a - 255 * c)) /\ inject_Z (100 * (n * a - 255 * c)) <= inject_Z 25755) by (rewrite <- !Zle_Qle; lia).
  rewrite inject_Z_mult in L. change (inject_Z 100) with 100 in L. change (inject_Z 25755) with 25755 in L. change (inject_Z (-25755)) with (-25755) in L.
  set (z := inject_Z (n * a - 255 * c)) in *. destruct L as [L1 L2].
  assert (Z0 : z / 65025 == z * (1 # 65025)) by (unfold Qdiv; reflexivity). rewrite Z0. split; lra.
Qed.

(** The colour of a pixel of a picture in colour. *)
Lemma colour_word r x y v : (forall i, 0 <= ra_byte r i < 256)%Z -> multiplied r -> (0 <= x < ra_w r)%Z -> (0 <= y < ra_h r)%Z ->
  shade r x y = Ok v ->
  let i := (4 * (y * ra_w r + x))%Z in let c := packed_color v in
  q_a c = level r (i + 3) /\
  Qabs (q_r c * q_a c - level r (i + 2)) <= 101 # 25500 /\ Qabs (q_g c * q_a c - level r (i + 1)) <= 101 # 25500 /\
  Qabs (q_b c * q_a c - level r i) <= 101 # 25500.
Proof.
  intros BY (F & M) X Y S. cbv zeta. unfold shade in S. rewrite F in S. cbv zeta in S.
  pose proof (M x y 0%Z X Y ltac:(lia)) as (A & M0). pose proof (M x y 1%Z X Y ltac:(lia)) as (_ & M1). pose proof (M x y 2%Z X Y ltac:(lia)) as (_ & M2).
  set (i := (4 * (y * ra_w r + x))%Z) in *. rewrite !Z.add_0_r in *.
  pose proof (BY i). pose proof (BY (i + 1)%Z). pose proof (BY (i + 2)%Z). pose proof (BY (i + 3)%Z).
  destruct (divided_byte (ra_byte r i) (ra_byte r (i + 3))) as (n0 & E0 & R0 & D0); [lia|lia|].
  destruct (divided_byte (ra_byte r (i + 1)) (ra_byte r (i + 3))) as (n1 & E1 & R1 & D1); [lia|lia|].
  destruct (divided_byte (ra_byte r (i + 2)) (ra_byte r (i + 3))) as (n2 & E2 & R2 & D2); [lia|lia|].
  unfold to_argb in S. cbn [c_r c_g c_b c_a] in S. rewrite E0, E1, E2 in S. cbn [obind] in S.
  change (f32_div (f32_of_Z (ra_byte r (i + 3))) f32_255) with (channel (ra_byte r (i + 3))) in S.
  rewrite channel_byte_ok in S by lia. cbn [obind] in S. rewrite land255, Z.mod_small in S by lia. injection S as <-.
  rewrite packed_bytes by lia. cbn [q_r q_g q_b q_a]. unfold level. split; [reflexivity|].
  repeat split; apply scaled_byte; lia.
Qed.
Lemma grey_shade r x y v : (forall i, 0 <= ra_byte r i < 256)%Z -> ra_format r = R8 -> shade r x y = Ok v ->
  packed_color v = {| q_r := inject_Z 255 / 255; q_g := inject_Z 255 / 255; q_b := inject_Z 255 / 255; q_a := level r (y * ra_w r + x) |}.
Proof. intros BY F S. unfold shade in S. rewrite F in S. injection S as <-. apply grey_word, BY. Qed.

Lemma picture_words u t im x y r : image_for u TEXT_FORMAT t im -> AtlasSpec.shows EXTENT t x y r ->
  picture_at (im_texture im) x y (ra_w r) (ra_h r) (fun k l => t_texel (im_texture im) (x + k) (y + l)) /\
  forall k l, (0 <= k < ra_w r -> 0 <= l < ra_h r -> exists v, shade r k l = Ok v /\ t_texel (im_texture im) (x + k) (y + l) = packed_color v)%Z.
Proof.
  intros (es & -> & ->) (X & Y & W & H & S). destruct (page_words_shown u TEXT_FORMAT es) as (_ & TW & TH & T). cbn [t_w t_h texture_of] in TW, TH.
  split; [split; [rewrite TW, TH; lia|reflexivity]|].
  intros k l K L. destruct (S k l K L) as (v & V & E). exists v. split; [exact V|]. rewrite T. cbn [t_texel texture_of]. rewrite E. reflexivity.
Qed.
