(** C100: what the studio writes to disk. *)
From Coq Require Import List Bool Arith String Ascii Lia.
From Verif Require Import FilesModel.
Import ListNotations.
Open Scope string_scope.

Fixpoint has_slash (s : string) : Prop := match s with EmptyString => False | String c r => c = "/"%char \/ has_slash r end.
Lemma slash_app a b : has_slash (a ++ b) <-> has_slash a \/ has_slash b.
Proof. induction a as [|c a IH]; cbn; [tauto|]. rewrite IH. tauto. Qed.
Lemma basename_no_slash p : ~ has_slash (basename p).
Proof.
  unfold basename. assert (H : forall p acc, ~ has_slash acc -> ~ has_slash (basename_from acc p)).
  { clear. induction p as [|c p IH]; intros acc Ha; cbn; [exact Ha|]. destruct (Ascii.eqb_spec c "/"%char) as [E|N]; apply IH; [intros []|].
    rewrite slash_app. cbn. tauto. }
  apply H. intros [].
Qed.
Lemma app_assoc_s a b c : (a ++ b) ++ c = a ++ (b ++ c).
Proof. induction a as [|x a IH]; cbn; [reflexivity|now rewrite IH]. Qed.
Lemma app_nil_s a : a ++ "" = a.
Proof. induction a as [|x a IH]; cbn; [reflexivity|now rewrite IH]. Qed.
(** the name without directories is kept as it is *)
Lemma basename_plain p : ~ has_slash p -> basename p = p.
Proof.
  unfold basename. assert (H : forall p acc, ~ has_slash p -> basename_from acc p = acc ++ p).
  { clear. induction p as [|c p IH]; intros acc Hp; cbn; [symmetry; apply app_nil_s|]. cbn in Hp. destruct (Ascii.eqb_spec c "/"%char) as [E|N]; [tauto|].
    rewrite IH by tauto. now rewrite app_assoc_s. }
  intros Hp. now rewrite H.
Qed.
Lemma basename_last p q : ~ has_slash q -> basename (p ++ "/" ++ q) = q.
Proof.
  intros Hq. unfold basename. assert (H : forall p acc, basename_from acc (p ++ "/" ++ q) = q).
  { clear p. induction p as [|c p IH]; intros acc; cbn.
    - exact (basename_plain q Hq).
    - destruct (Ascii.eqb c "/"%char); apply IH. }
  apply H.
Qed.
(** the extension of a data file, in any case *)
Definition data_suffix (s : string) : Prop := exists stem a b c, s = stem ++ String "." (String a (String b (String c ""))) /\
  ((a = "c" \/ a = "C") /\ (b = "s" \/ b = "S") /\ (c = "v" \/ c = "V") \/
   (a = "t" \/ a = "T") /\ (b = "x" \/ b = "X") /\ (c = "t" \/ c = "T"))%char.
Lemma lower_either (c lo up : ascii) : In (lo, up) [("c", "C"); ("s", "S"); ("v", "V"); ("t", "T"); ("x", "X")]%char -> lower_ascii c = lo <-> c = lo \/ c = up.
Proof.
  assert (G : forallb (fun '(lo, up) => forallb (fun n => let c := ascii_of_nat n in Bool.eqb (Ascii.eqb (lower_ascii c) lo) (Ascii.eqb c lo || Ascii.eqb c up)) (seq 0 256))
    [("c", "C"); ("s", "S"); ("v", "V"); ("t", "T"); ("x", "X")]%char = true) by (vm_compute; reflexivity).
  intros H. rewrite forallb_forall in G. specialize (G _ H). cbv beta iota in G. rewrite forallb_forall in G.
  assert (L : In (nat_of_ascii c) (seq 0 256)) by (apply in_seq; pose proof (nat_ascii_bounded c); lia).
  specialize (G _ L). cbv zeta in G. rewrite ascii_nat_embedding in G. apply Bool.eqb_prop in G.
  rewrite <- !Ascii.eqb_eq, G, orb_true_iff. reflexivity.
Qed.
Lemma lower_dot (c : ascii) : lower_ascii c = "."%char <-> c = "."%char.
Proof. destruct c as [[] [] [] [] [] [] [] []]; vm_compute; split; intros E; try discriminate E; auto. Qed.
Lemma string_inj a b s t : String a s = String b t -> a = b /\ s = t.
Proof. intros H. injection H as -> ->. auto. Qed.
Lemma lower_csv e : lower e = ".csv" <-> exists a b c, e = String "." (String a (String b (String c ""))) /\ (a = "c" \/ a = "C")%char /\ (b = "s" \/ b = "S")%char /\ (c = "v" \/ c = "V")%char.
Proof.
  split.
  - intros H. destruct e as [|d [|a [|b [|c [|x y]]]]]; cbn [lower] in H; try discriminate H. apply string_inj in H as [Hd H]. apply string_inj in H as [Ha H]. apply string_inj in H as [Hb H]. apply string_inj in H as [Hc _]. apply (proj1 (lower_dot _)) in Hd. subst d.
    exists a, b, c. split; [reflexivity|]. repeat split; (eapply lower_either; [|eassumption]; cbn; tauto).
  - intros (a & b & c & -> & Ha & Hb & Hc). cbn [lower]. rewrite (proj2 (lower_either a "c" "C" ltac:(cbn; tauto)) Ha), (proj2 (lower_either b "s" "S" ltac:(cbn; tauto)) Hb), (proj2 (lower_either c "v" "V" ltac:(cbn; tauto)) Hc). reflexivity.
Qed.
Lemma lower_txt e : lower e = ".txt" <-> exists a b c, e = String "." (String a (String b (String c ""))) /\ (a = "t" \/ a = "T")%char /\ (b = "x" \/ b = "X")%char /\ (c = "t" \/ c = "T")%char.
Proof.
  split.
  - intros H. destruct e as [|d [|a [|b [|c [|x y]]]]]; cbn [lower] in H; try discriminate H. apply string_inj in H as [Hd H]. apply string_inj in H as [Ha H]. apply string_inj in H as [Hb H]. apply string_inj in H as [Hc _]. apply (proj1 (lower_dot _)) in Hd. subst d.
    exists a, b, c. split; [reflexivity|]. repeat split; (eapply lower_either; [|eassumption]; cbn; tauto).
  - intros (a & b & c & -> & Ha & Hb & Hc). cbn [lower]. rewrite (proj2 (lower_either a "t" "T" ltac:(cbn; tauto)) Ha), (proj2 (lower_either b "x" "X" ltac:(cbn; tauto)) Hb), (proj2 (lower_either c "t" "T" ltac:(cbn; tauto)) Hc). reflexivity.
Qed.
Lemma substring_all s : substring 0 (length s) s = s.
Proof. induction s as [|c s IH]; cbn; [reflexivity|now rewrite IH]. Qed.
Lemma lower_length s : length (lower s) = length s.
Proof. induction s as [|c s IH]; cbn; [reflexivity|now rewrite IH]. Qed.
Lemma lower_app a b : lower (a ++ b) = lower a ++ lower b.
Proof. induction a as [|c a IH]; cbn; [reflexivity|now rewrite IH]. Qed.
Lemma length_app a b : length (a ++ b) = (length a + length b)%nat.
Proof. induction a as [|c a IH]; cbn; [reflexivity|now rewrite IH]. Qed.
Lemma substring_app a b m : m = length b -> substring (length a) m (a ++ b) = b.
Proof. intros ->. induction a as [|c a IH]; cbn; [apply substring_all|exact IH]. Qed.
Lemma split_at n : forall s, (n <= length s)%nat -> exists a b, s = a ++ b /\ length a = n.
Proof.
  induction n as [|n IH]; intros s H; [now exists "", s|]. destruct s as [|c s]; [cbn in H; lia|].
  cbn in H. destruct (IH s ltac:(lia)) as (a & b & -> & E). exists (String c a), b. cbn. auto.
Qed.
Lemma endswith_spec s suf : endswith (lower s) suf = true <-> exists stem ext, s = stem ++ ext /\ lower ext = suf.
Proof.
  unfold endswith. rewrite andb_true_iff, Nat.leb_le, lower_length, String.eqb_eq. split.
  - intros [L E]. destruct (split_at (length s - length suf) s ltac:(lia)) as (a & b & Es & La). exists a, b. split; [exact Es|].
    rewrite <- E. rewrite Es at 2. rewrite lower_app. rewrite <- La, <- (lower_length a). symmetry. apply substring_app.
    rewrite lower_length. apply (f_equal length) in Es. rewrite length_app in Es. lia.
  - intros (a & b & -> & <-). rewrite length_app, lower_length. split; [lia|].
    replace (length a + length b - length b)%nat with (length (lower a)) by (rewrite lower_length; lia). rewrite lower_app. apply substring_app. now rewrite lower_length.
Qed.
Lemma data_suffix_spec s : endswith (lower s) ".csv" || endswith (lower s) ".txt" = true <-> data_suffix s.
Proof.
  rewrite orb_true_iff, !endswith_spec. unfold data_suffix. split.
  - intros [(st & e & -> & H)|(st & e & -> & H)]; [apply lower_csv in H|apply lower_txt in H]; destruct H as (a & b & c & -> & H); exists st, a, b, c; tauto.
  - intros (st & a & b & c & -> & [H|H]); [left|right]; do 2 eexists; (split; [reflexivity|]); [apply lower_csv|apply lower_txt]; exists a, b, c; tauto.
Qed.

Lemma path_eqb_spec a b : path_eqb a b = true <-> a = b.
Proof. unfold path_eqb. destruct (list_eq_dec string_dec a b); split; intros; auto; discriminate. Qed.

(** A directory entry next to the document that has the suffix of a data file *)
Definition data_file_of (doc : path) (q : path) : Prop := exists name, q = sibling doc name /\ ~ has_slash name /\ data_suffix name.

(** Whatever is requested, in whatever order: only the document itself and data files next to it
    are ever written. *)
Theorem C100_nothing_else_written : forall document_path rs document fs q,
  fresh_temps document_path (document, fs) rs ->
  (forall doc, document_path = Some doc -> q <> doc /\ ~ data_file_of doc q) ->
  snd (serve document_path (document, fs) rs) q = fs q.
Proof.
  intros dp rs. induction rs as [|r rs IH]; intros document fs q F H; [reflexivity|]. cbn [fresh_temps] in F. destruct F as [Fr F].
  change (serve dp (document, fs) (r :: rs)) with (serve dp (server_step dp (document, fs) r) rs).
  destruct r as [temp text acc|name content|]; cbn [server_step] in *.
  - rewrite IH by assumption. unfold apply_files, unlink, write_text. destruct (path_eqb q temp) eqn:E; [|reflexivity]. apply path_eqb_spec in E. subst. symmetry. exact Fr.
  - rewrite IH by assumption. unfold upload. destruct dp as [doc|]; [|reflexivity].
    destruct (String.eqb (basename name) "" || negb _) eqn:C; [reflexivity|]. cbn [fst]. unfold write_text. destruct (path_eqb q (sibling doc (basename name))) eqn:E; [|reflexivity].
    apply path_eqb_spec in E. apply orb_false_iff in C. destruct C as [_ C]. apply negb_false_iff in C. apply data_suffix_spec in C. exfalso. apply (proj2 (H doc eq_refl)).
    exists (basename name). split; [exact E|]. split; [apply basename_no_slash|exact C].
  - rewrite IH by assumption. unfold save. destruct dp as [doc|]; [|reflexivity]. unfold write_text. destruct (path_eqb q doc) eqn:E; [|reflexivity].
    apply path_eqb_spec in E. destruct (H doc eq_refl) as [N _]. contradiction.
Qed.
Print Assumptions C100_nothing_else_written.

(** A data file is accepted whatever directories its name mentions, and found under its own name. *)
Theorem C100_upload_saved : forall doc fs dirs name content, ~ has_slash name -> data_suffix name -> exists fs',
  upload (Some doc) fs name content = (fs', Some name) /\ upload (Some doc) fs (dirs ++ "/" ++ name) content = (fs', Some name) /\
  fs' (sibling doc name) = Some content.
Proof.
  intros doc fs dirs name content Hn Hs. unfold upload. rewrite (basename_plain name Hn), (basename_last dirs name Hn).
  assert (Ne : String.eqb name "" = false).
  { apply String.eqb_neq. intros ->. destruct Hs as ([|z st] & a & b & c & E & _); discriminate E. }
  rewrite Ne. apply data_suffix_spec in Hs. rewrite Hs. cbn. eexists. split; [reflexivity|]. split; [reflexivity|].
  unfold write_text. now rewrite (proj2 (path_eqb_spec _ _) eq_refl).
Qed.
Print Assumptions C100_upload_saved.

(** The file of the document holds what was last saved: it is changed by nothing but save,
    provided it does not itself have the suffix of a data file. *)
Definition last_saved (document : string) (rs : list request) : option string :=
  snd (fold_left (fun '(d, saved) r => match r with
                                      | Put _ text true => (text, saved)
                                      | Save => (d, Some d)
                                      | _ => (d, saved) end) rs (document, None)).
Theorem C100_document_only_saved_partial : forall dir name rs document fs,
  ~ data_suffix name -> let doc := (dir ++ [name])%list in
  fresh_temps (Some doc) (document, fs) rs ->
  snd (serve (Some doc) (document, fs) rs) doc = match last_saved document rs with Some d => Some d | None => fs doc end.
Proof.
  intros dir name rs document fs Nd doc F.
  assert (G : forall rs document fs saved, fresh_temps (Some doc) (document, fs) rs -> (forall d, saved = Some d -> fs doc = Some d) ->
     snd (serve (Some doc) (document, fs) rs) doc =
     match snd (fold_left (fun '(d, saved) r => match r with Put _ text true => (text, saved) | Save => (d, Some d) | _ => (d, saved) end) rs (document, saved)) with Some d => Some d | None => fs doc end).
  { clear rs document fs F. induction rs as [|r rs IH]; intros document fs saved F Hsv.
    - cbn. destruct saved as [d|]; [now apply Hsv|reflexivity].
    - cbn [fresh_temps] in F. destruct F as [Fr F]. change (serve (Some doc) (document, fs) (r :: rs)) with (serve (Some doc) (server_step (Some doc) (document, fs) r) rs).
      destruct r as [temp text acc|nm content|]; cbn [server_step fold_left] in *.
      + assert (E : apply_files temp text fs doc = fs doc).
        { unfold apply_files, unlink, write_text. destruct (path_eqb doc temp) eqn:E; [|reflexivity]. apply path_eqb_spec in E. subst temp. symmetry. exact Fr. }
        rewrite (IH _ _ saved F) by (intros d Hd; rewrite E; now apply Hsv). rewrite E. destruct acc; reflexivity.
      + assert (E : fst (upload (Some doc) fs nm content) doc = fs doc).
        { unfold upload. destruct (String.eqb (basename nm) "" || negb _) eqn:C; [reflexivity|]. cbn [fst]. unfold write_text. destruct (path_eqb doc (sibling doc (basename nm))) eqn:E; [|reflexivity].
          apply path_eqb_spec in E. apply orb_false_iff in C. destruct C as [_ C]. apply negb_false_iff in C. apply data_suffix_spec in C.
          unfold sibling, doc in E. rewrite removelast_last in E. apply app_inj_tail in E. destruct E as [_ E]. subst. contradiction. }
        rewrite (IH _ _ saved F) by (intros d Hd; rewrite E; now apply Hsv). rewrite E. reflexivity.
      + assert (E : save (Some doc) document fs doc = Some document) by (unfold save, write_text; now rewrite (proj2 (path_eqb_spec _ _) eq_refl)).
        rewrite (IH _ _ (Some document) F) by (intros d [= <-]; exact E).
        assert (P : forall rs d sv, sv <> None -> snd (fold_left (fun '(d, saved) r => match r with Put _ text true => (text, saved) | Save => (d, Some d) | _ => (d, saved) end) rs (d, sv)) <> None).
        { clear. induction rs as [|r rs IH]; intros d sv H; [exact H|]. cbn [fold_left]. destruct r as [t x [|]|n c|]; apply IH; try exact H. discriminate. }
        specialize (P rs document (Some document) ltac:(discriminate)). destruct (snd _); [reflexivity|congruence]. }
  unfold last_saved. apply G; [exact F|discriminate].
Qed.
Print Assumptions C100_document_only_saved_partial.
(** A document opened as scene.txt is overwritten by an upload of that name. *)
Theorem C100_document_only_saved_refuted : exists doc rs document fs,
  fresh_temps (Some doc) (document, fs) rs /\ last_saved document rs = None /\
  snd (serve (Some doc) (document, fs) rs) doc <> fs doc.
Proof.
  exists ["home"; "scene.txt"], [Upload "scene.txt" "1,2"], "nodes: {}", (fun q => if path_eqb q ["home"; "scene.txt"] then Some "nodes: {}" else None).
  split; [cbn; auto|]. split; [reflexivity|]. vm_compute. discriminate.
Qed.
Print Assumptions C100_document_only_saved_refuted.

(** ../../etc/passwd is refused, ../Data.CSV goes next to the document *)
Example C100_example : snd (upload (Some ["home"; "a"; "scene.yml"]) (fun _ => None) "../../etc/passwd" "x") = None /\
  (let '(fs, saved) := upload (Some ["home"; "a"; "scene.yml"]) (fun _ => None) "../Data.CSV" "x" in
   saved = Some "Data.CSV" /\ fs ["home"; "a"; "Data.CSV"] = Some "x" /\ fs ["home"; "Data.CSV"] = None).
Proof. vm_compute. auto. Qed.
