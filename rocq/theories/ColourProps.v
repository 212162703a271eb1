(** Property C55: colours of wavelengths. *)
From Coq Require Import Reals ZArith List Bool Lra Lia ZifyBool.
From Verif Require Import Base TallyModel TallyProofs ColourModel.
Import ListNotations.
Open Scope R_scope.

Lemma trunc_bounds : forall x, 0 <= x -> (0 <= trunc x)%Z /\ IZR (trunc x) <= x < IZR (trunc x) + 1.
Proof.
  intros x H. unfold trunc. rewrite (proj2 (Rleb_true 0 x)) by assumption.
  destruct (archimed x) as [A B]. rewrite minus_IZR.
  split; [|lra]. assert (IZR 0 < IZR (up x)) by lra. apply lt_IZR in H0. lia.
Qed.
Lemma trunc_at_most : forall x n, 0 <= x -> x <= IZR n -> (trunc x <= n)%Z.
Proof. intros x n H H1. destruct (trunc_bounds x H) as [_ [B _]]. apply le_IZR. lra. Qed.
Lemma trunc_at_least : forall x n, 0 <= x -> IZR n <= x -> (n <= trunc x)%Z.
Proof. intros x n H H1. destruct (trunc_bounds x H) as [_ [_ B]]. apply Z.lt_succ_r. apply lt_IZR. rewrite succ_IZR. lra. Qed.

Ltac split_ifs :=
  repeat match goal with
  | |- context [if ?c then _ else _] => destruct c eqn:?
  | H : context [if ?c then _ else _] |- _ => destruct c eqn:?
  end.
Ltac to_real :=
  repeat match goal with
  | H : (_ && _)%bool = true |- _ => apply andb_prop in H; destruct H
  | H : (_ <=? _)%Z = true |- _ => apply Z.leb_le, IZR_le in H
  | H : (_ <? _)%Z = true |- _ => apply Z.ltb_lt, IZR_lt in H
  end.

Lemma base_in_unit : forall w, let '(r, g, b) := base_colour w in 0 <= r <= 1 /\ 0 <= g <= 1 /\ 0 <= b <= 1.
Proof. intro w. unfold base_colour. split_ifs; to_real; lra. Qed.
Lemma intensity_range : forall w, 0 <= intensity w <= 255.
Proof. intro w. unfold intensity. split_ifs; to_real; lra. Qed.
Lemma invisible : forall w, ~ (380 <= w <= 780)%Z -> base_colour w = (0, 0, 0).
Proof. intros w H. unfold base_colour. split_ifs; (reflexivity || (exfalso; lia)). Qed.
Lemma bright : forall w, (380 <= w <= 780)%Z -> 1 / 4 * 255 <= intensity w.
Proof. intros w H. unfold intensity. split_ifs; try (exfalso; lia); to_real; lra. Qed.
Lemma saturated : forall w, (380 <= w <= 780)%Z ->
  let '(r, g, b) := base_colour w in r = 1 \/ g = 1 \/ b = 1.
Proof. intros w H. unfold base_colour. split_ifs; try (exfalso; lia); auto. Qed.
Lemma channel : forall s x, 0 <= s <= 255 -> 0 <= x <= 1 -> (0 <= trunc (s * x) <= 255)%Z.
Proof.
  intros s x Hs Hx. assert (0 <= s * x) by (apply Rmult_le_pos; lra).
  assert (s * x <= 255) by (replace 255 with (255 * 1) by ring; apply Rmult_le_compat; lra).
  split; [apply trunc_bounds; assumption|apply trunc_at_most; lra].
Qed.

Definition channels (rgb : Z * Z * Z) : list Z := let '(r, g, b) := rgb in [r; g; b].
Definition valid_rgb (rgb : Z * Z * Z) : Prop := Forall (fun x => 0 <= x <= 255)%Z (channels rgb).

(** Every wavelength, also negative or huge, has a colour with channels 0..255. *)
Theorem C55_channels_valid : forall nanometers, valid_rgb (wavelength_to_rgb nanometers).
Proof.
  intro nm. unfold wavelength_to_rgb. pose proof (base_in_unit (trunc nm)) as B. pose proof (intensity_range (trunc nm)) as I.
  destruct (base_colour (trunc nm)) as [[r g] b]. destruct B as (Hr & Hg & Hb).
  repeat constructor; (apply channel; assumption).
Qed.
Print Assumptions C55_channels_valid.

(** Packing: the hexadecimal number is r * 65536 + g * 256 + b of the clamped channels, lies in
    0..0xffffff, and valid colours with the same number are the same. *)
Lemma hex_value : forall r g b, rgb_to_hex_int (r, g, b) = (clamp r * 65536 + clamp g * 256 + clamp b)%Z.
Proof.
  intros r g b. unfold rgb_to_hex_int, hex2, parse_hex. cbn [app fold_left].
  pose proof (Z.div_mod (clamp r) 16 ltac:(lia)). pose proof (Z.div_mod (clamp g) 16 ltac:(lia)). pose proof (Z.div_mod (clamp b) 16 ltac:(lia)). lia.
Qed.
Lemma clamp_range : forall x, (0 <= clamp x <= 255)%Z.
Proof. intro x. unfold clamp. lia. Qed.
Lemma clamp_valid : forall x, (0 <= x <= 255)%Z -> clamp x = x.
Proof. intros x H. unfold clamp. lia. Qed.

Theorem C55_packing : forall rgb rgb',
  (0 <= rgb_to_hex_int rgb <= 0xffffff)%Z /\
  (valid_rgb rgb -> valid_rgb rgb' -> rgb_to_hex_int rgb = rgb_to_hex_int rgb' -> rgb = rgb').
Proof.
  intros [[r g] b] [[r' g'] b']. split.
  - rewrite hex_value. pose proof (clamp_range r). pose proof (clamp_range g). pose proof (clamp_range b). lia.
  - intros H H'. rewrite !hex_value. unfold valid_rgb in *. simpl in *.
    inversion_clear H as [|? ? A1 B]. inversion_clear B as [|? ? A2 C]. inversion_clear C as [|? ? A3 _].
    inversion_clear H' as [|? ? A1' B]. inversion_clear B as [|? ? A2' C]. inversion_clear C as [|? ? A3' _].
    rewrite !clamp_valid by assumption. intro E.
    assert (r = r') by lia. assert (g = g') by lia. assert (b = b') by lia. congruence.
Qed.
Print Assumptions C55_packing.

(** The bytes of the packed number are the channels (so red is the most significant one). *)
Theorem C55_bytes : forall r g b, valid_rgb (r, g, b) ->
  let n := rgb_to_hex_int (r, g, b) in
  Z.shiftr n 16 = r /\ (Z.land (Z.shiftr n 8) 0xff = g)%Z /\ (Z.land n 0xff = b)%Z.
Proof.
  intros r g b H n. unfold n. rewrite hex_value. unfold valid_rgb in H. simpl in H.
  inversion_clear H as [|? ? A1 B]. inversion_clear B as [|? ? A2 C]. inversion_clear C as [|? ? A3 _].
  rewrite !clamp_valid by assumption.
  assert (L : forall x, (Z.land x 255 = x mod 256)%Z) by (intro x; change 255%Z with (Z.ones 8); rewrite Z.land_ones by lia; reflexivity).
  rewrite !L, !Z.shiftr_div_pow2 by lia. change (2 ^ 16)%Z with 65536%Z. change (2 ^ 8)%Z with 256%Z.
  repeat split.
  - symmetry. apply (Z.div_unique _ 65536 _ (g * 256 + b)); lia.
  - replace ((r * 65536 + g * 256 + b) / 256)%Z with (r * 256 + g)%Z by (apply (Z.div_unique _ 256 _ b); lia).
    symmetry. apply (Z.mod_unique _ 256 r); lia.
  - symmetry. apply (Z.mod_unique _ 256 (r * 256 + g)); lia.
Qed.
Print Assumptions C55_bytes.

(** Exactly the wavelengths from 380 nm up to (not including) 781 nm are drawn in a colour
    other than black. *)
Theorem C55_visible_not_black : forall nanometers,
  wavelength_to_rgb nanometers <> (0, 0, 0)%Z <-> 380 <= nanometers < 781.
Proof.
  intro nm. assert (Hw : (380 <= trunc nm <= 780)%Z <-> 380 <= nm < 781).
  { destruct (Rle_or_lt 0 nm) as [H0|H0].
    - destruct (trunc_bounds nm H0) as [_ [A B]]. split.
      + intros [H1 H2]. apply IZR_le in H1. apply IZR_le in H2. lra.
      + intros [H1 H2]. split; [apply trunc_at_least; lra|]. apply Z.lt_succ_r. apply lt_IZR. rewrite succ_IZR. lra.
    - split; [|lra]. intros [H1 _]. exfalso. unfold trunc in H1.
      destruct (Rleb 0 nm) eqn:E; [apply Rleb_true in E; lra|].
      destruct (archimed (- nm)) as [A _]. assert (IZR 0 < IZR (up (- nm))) by lra. apply lt_IZR in H. lia. }
  rewrite <- Hw. unfold wavelength_to_rgb. generalize (trunc nm) as w. intro w. clear Hw. split.
  - intro H. destruct (Z_le_dec 380 w) as [A|A]; [destruct (Z_le_dec w 780) as [B|B]; [lia|]|]; exfalso; apply H.
    all: rewrite invisible by lia; rewrite !Rmult_0_r; unfold trunc;
      rewrite (proj2 (Rleb_true 0 0)) by lra; replace (up 0) with 1%Z; [reflexivity|]; apply tech_up; lra.
  - intros AB E. pose proof (saturated w AB) as Hs. pose proof (bright w AB) as Hb.
    destruct (base_colour w) as [[r g] b]. injection E as Er Eg E3.
    assert (P : forall x, 1 <= x -> trunc x <> 0%Z).
    { intros x Hx Hz. pose proof (trunc_at_least x 1 ltac:(lra) Hx). lia. }
    destruct Hs as [->|[->| ->]]; apply (P (intensity w * 1)); (lra || assumption).
Qed.
Print Assumptions C55_visible_not_black.

(** 555.9 nm is a green: (163, 255, 0), number 0xa3ff00. *)
Example green : wavelength_to_hex_int (5559 / 10) = 0xa3ff00%Z.
Proof.
  unfold wavelength_to_hex_int, wavelength_to_rgb.
  assert (T : forall x n, 0 <= x -> IZR n <= x < IZR n + 1 -> trunc x = n).
  { intros x n H [H1 H2]. apply Z.le_antisymm; [apply Z.lt_succ_r; apply lt_IZR; destruct (trunc_bounds x H) as [_ [B _]]; rewrite succ_IZR; lra|now apply trunc_at_least]. }
  rewrite (T (5559 / 10) 555%Z) by lra.
  replace (base_colour 555) with ((555 - 510) / (580 - 510), 1, 0) by reflexivity.
  replace (intensity 555) with (1 * 255) by reflexivity.
  rewrite (T _ 163%Z) by lra. rewrite (T _ 255%Z) by lra. rewrite (T _ 0%Z) by lra. reflexivity.
Qed.
(** and clamping makes the packing non-injective outside the valid range *)
Example clamped : rgb_to_hex_int (300, -5, 0)%Z = rgb_to_hex_int (255, 0, 0)%Z.
Proof. reflexivity. Qed.
