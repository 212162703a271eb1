(** C132: a document finds the files it names. *)
From Coq Require Import List Bool String Ascii Reals Arith Lra Lia.
From Verif Require Import FilesModel FilesProps LookupModel.
Import ListNotations.
Open Scope string_scope.

Lemma cons_inj x y (a b : string) : String x a = String y b -> x = y /\ a = b.
Proof. intros H. now inversion H. Qed.
Lemma app_assoc_s (a b c : string) : (a ++ b) ++ c = a ++ (b ++ c).
Proof. induction a as [|x a IH]; cbn; [reflexivity|now rewrite IH]. Qed.
Lemma app_nil_s (a : string) : a ++ "" = a.
Proof. induction a as [|x a IH]; cbn; [reflexivity|now rewrite IH]. Qed.
Lemma split_from_acc s : forall acc, exists h t, split_from acc s = (acc ++ h) :: t /\ split_from "" s = h :: t.
Proof.
  induction s as [|c s IH]; intros acc; cbn [split_from].
  - exists "", []. now rewrite app_nil_s.
  - destruct (Ascii.eqb c "/"); [exists "", (split_from "" s); now rewrite app_nil_s|].
    destruct (IH (acc ++ String c "")) as (h & t & E1 & E2). destruct (IH ("" ++ String c "")) as (h' & t' & E3 & E4).
    rewrite E4 in E2. injection E2 as -> ->. exists (String c h), t. rewrite E1, E3, app_assoc_s. split; reflexivity.
Qed.
Lemma split_app a b : split (a ++ String "/" b) = (split a ++ split b)%list.
Proof.
  unfold split. assert (G : forall acc, split_from acc (a ++ String "/" b) = (split_from acc a ++ split_from "" b)%list); [|apply G].
  induction a as [|c a IH]; intros acc; cbn [append split_from]; [reflexivity|]. destruct (Ascii.eqb c "/"); [cbn [app]; now rewrite IH|apply IH].
Qed.
Lemma walk_app dir a b : walk dir (a ++ String "/" b) = walk (walk dir a) b.
Proof. unfold walk. now rewrite split_app, fold_left_app. Qed.
Lemma walk_nil dir : walk dir "" = dir.
Proof. reflexivity. Qed.
Lemma walk_slash dir a : walk dir (a ++ "/") = walk dir a.
Proof. now rewrite walk_app, walk_nil. Qed.
Lemma walk_lead dir b : walk dir (String "/" b) = walk dir b.
Proof. change (String "/" b) with ("" ++ String "/" b). now rewrite walk_app, walk_nil. Qed.

(** a name: not empty, "." or "..", no slash *)
Definition is_name (c : string) : Prop := c <> "" /\ c <> "." /\ c <> ".." /\ has_slash c = false.
Lemma split_plain c : has_slash c = false -> split c = [c].
Proof.
  unfold split. assert (G : forall acc, has_slash c = false -> split_from acc c = [acc ++ c]); [|intros H; now rewrite G].
  induction c as [|x c IH]; intros acc H; cbn [split_from has_slash] in *; [now rewrite app_nil_s|]. apply orb_false_iff in H. destruct H as [H1 H2].
  rewrite H1, IH by exact H2. now rewrite app_assoc_s.
Qed.
Lemma walk_name dir c : is_name c -> walk dir c = (dir ++ [c])%list.
Proof.
  intros (H1 & H2 & H3 & H4). unfold walk. rewrite split_plain by exact H4. cbn [fold_left]. unfold step.
  destruct (String.eqb_spec c ""); [contradiction|]. destruct (String.eqb_spec c "."); [contradiction|]. destruct (String.eqb_spec c ".."); [contradiction|]. reflexivity.
Qed.
Fixpoint tail (p : string) : string := match p with EmptyString => "" | String c r => if Ascii.eqb c "/" || has_slash r then tail r else p end.
Lemma head_tail p : p = head p ++ tail p /\ has_slash (tail p) = false /\ (head p = "" \/ exists h, head p = h ++ "/") /\ isabs (head p) = isabs p.
Proof.
  induction p as [|c p (E & T & H & A)]; [repeat split; now left|]. cbn [head tail]. destruct (Ascii.eqb c "/") eqn:Ec; cbn [orb].
  - apply Ascii.eqb_eq in Ec. subst c. split; [cbn [append]; now rewrite <- E|]. split; [exact T|]. split; [|reflexivity]. right. destruct H as [H|[h H]]; rewrite H; [now exists ""|now exists (String "/" h)].
  - destruct (has_slash p) eqn:Hs.
    + split; [cbn [append]; now rewrite <- E|]. split; [exact T|]. split; [|cbn; now rewrite Ec]. right. destruct H as [H|[h H]]; [|exists (String c h); now rewrite H].
      exfalso. rewrite H in E. cbn in E. rewrite E in Hs. congruence.
    + split; [reflexivity|]. split; [cbn [has_slash]; now rewrite Ec, Hs|]. split; [now left|]. cbn. now rewrite Ec.
Qed.
Lemma rstrip_walk s : forall dir, walk dir (rstrip s) = walk dir s.
Proof.
  assert (G : exists k, s = rstrip s ++ k /\ forall a dir, walk dir (a ++ k) = walk dir a).
  { induction s as [|c s (k & E & W)]; [exists ""; split; [reflexivity|intros; now rewrite app_nil_s]|]. cbn [rstrip]. destruct (Ascii.eqb c "/" && String.eqb (rstrip s) "") eqn:B.
    - apply andb_true_iff in B. destruct B as [B1 B2]. apply Ascii.eqb_eq in B1. apply String.eqb_eq in B2. subst c. rewrite B2 in E. cbn [append] in E. subst k.
      exists (String "/" s). split; [reflexivity|]. intros a dir. rewrite walk_app. specialize (W "" (walk dir a)). cbn [append] in W. rewrite W. apply walk_nil.
    - exists k. split; [cbn [append]; now rewrite <- E|exact W]. }
  intros dir. destruct G as (k & E & W). rewrite E at 2. now rewrite W.
Qed.
Lemma rstrip_abs s : rstrip s <> "" -> isabs (rstrip s) = isabs s.
Proof. destruct s as [|c s]; [reflexivity|]. cbn [rstrip]. destruct (Ascii.eqb c "/" && String.eqb (rstrip s) ""); [contradiction|reflexivity]. Qed.
Lemma dirname_facts doc : isabs (dirname doc) = isabs doc /\ forall dir, walk dir (dirname doc) = walk dir (head doc).
Proof.
  destruct (head_tail doc) as (_ & _ & _ & A). unfold dirname. destruct (String.eqb_spec (rstrip (head doc)) "") as [E|E]; [now split|].
  split; [now rewrite rstrip_abs|]. intros dir. apply rstrip_walk.
Qed.
(** the directory of the document *)
Lemma dirname_resolve cwd doc : is_name (tail doc) -> resolve cwd doc = (resolve cwd (dirname doc) ++ [tail doc])%list.
Proof.
  intros Hn. destruct (head_tail doc) as (E & T & H & A). destruct (dirname_facts doc) as [D1 D2]. unfold resolve. rewrite D1, D2.
  match goal with |- walk ?d _ = _ => generalize d; intros dir end. replace (walk dir doc) with (walk dir (head doc ++ tail doc)) by now rewrite <- E. destruct H as [H|[h H]]; rewrite H.
  - cbn [append]. rewrite walk_nil. now apply walk_name.
  - rewrite app_assoc_s. cbn [append]. rewrite walk_app, walk_slash. now apply walk_name.
Qed.
Lemma endswith_slash a : endswith a "/" = true -> exists b, a = b ++ "/".
Proof.
  unfold endswith. cbn [String.length]. intros H. apply andb_true_iff in H. destruct H as [H1 H2]. apply String.eqb_eq in H2.
  induction a as [|c a IH]; [discriminate H1|]. destruct a as [|c' a].
  - cbn in H2. injection H2 as ->. now exists "".
  - cbn [String.length] in *. destruct IH as [b Eb]; [reflexivity| |exists (String c b); cbn [append]; now rewrite <- Eb].
    replace (S (S (String.length a)) - 1)%nat with (S (String.length a)) in H2 by lia. replace (S (String.length a) - 1)%nat with (String.length a) by lia. exact H2.
Qed.
Lemma join_resolve cwd a b : isabs b = false -> resolve cwd (join a b) = walk (resolve cwd a) b.
Proof.
  intros Hb. unfold join. rewrite Hb. destruct (String.eqb_spec a "") as [->|Ha]; cbn [orb].
  - cbn [append]. unfold resolve at 1. rewrite Hb. reflexivity.
  - assert (A : forall x, isabs (a ++ x) = isabs a) by (intros x; destruct a; [contradiction|reflexivity]).
    destruct (endswith a "/") eqn:E.
    + destruct (endswith_slash a E) as [h Hh]. unfold resolve. rewrite A. match goal with |- walk ?d _ = _ => generalize d; intros dir end. subst a. rewrite app_assoc_s. cbn [append]. now rewrite walk_app, walk_slash.
    + unfold resolve. rewrite A. cbn [append]. apply walk_app.
Qed.
Lemma abs_string_resolve cwd dir : Forall is_name dir -> resolve cwd (abs_string dir) = dir.
Proof.
  intros H. assert (G : forall d0, walk d0 (slashed dir) = (d0 ++ dir)%list).
  { induction H as [|c l Hc H IH]; intros d0; cbn [slashed]; [now rewrite app_nil_r|]. cbn [append]. rewrite walk_lead. 
    destruct l as [|c2 l]; [cbn [slashed]; rewrite app_nil_s; now apply walk_name|].
    change (slashed (c2 :: l)) with (String "/" (c2 ++ slashed l)) in *. rewrite walk_app. rewrite (walk_name d0 c Hc). specialize (IH (d0 ++ [c])%list). rewrite walk_lead in IH. rewrite IH, <- app_assoc. reflexivity. }
  unfold resolve, abs_string. destruct dir as [|c l]; [reflexivity|]. cbn [slashed append isabs Ascii.eqb]. specialize (G []). cbn [slashed append] in G. exact G.
Qed.

(** On the command line a relative name means: from the directory of the document. *)
Theorem C132_command_line : forall cwd doc f, is_name (tail doc) ->
  cli_file cwd doc f = (if isabs f then walk [] f else walk (removelast (resolve cwd doc)) f) /\ cli_mesh cwd doc f = cli_file cwd doc f.
Proof.
  intros cwd doc f Hn. unfold cli_file, cli_mesh, spectrum_file, mesh_file. rewrite (dirname_resolve cwd doc Hn), removelast_last.
  destruct (isabs f) eqn:Ef; cbn [negb]; [unfold resolve; rewrite Ef; split; reflexivity|]. rewrite join_resolve by exact Ef. split; reflexivity.
Qed.
Print Assumptions C132_command_line.

(** In the studio it means: from the directory in which the studio was started. *)
Theorem C132_studio_partial : forall cwd temp doc f, Forall is_name cwd -> is_name temp -> is_name (tail doc) ->
  studio_file cwd temp f = (if isabs f then walk [] f else walk cwd f) /\ studio_mesh cwd temp f = studio_file cwd temp f /\
  (removelast (resolve cwd doc) = cwd -> studio_file cwd temp f = cli_file cwd doc f).
Proof.
  intros cwd temp doc f Hc Ht Hd.
  assert (Ft : isabs temp = false). { destruct Ht as (_ & _ & _ & Ht). destruct temp; [reflexivity|]. cbn in *. now apply orb_false_iff in Ht. }
  assert (Rt : resolve cwd (studio_temp cwd temp) = (cwd ++ [temp])%list). { unfold studio_temp. rewrite join_resolve by exact Ft. rewrite abs_string_resolve by exact Hc. now apply walk_name. }
  assert (Tt : tail (studio_temp cwd temp) = temp).
  { unfold studio_temp, join. rewrite Ft. destruct Ht as (Ht & _ & _ & Hs).
    assert (G : forall a, tail (a ++ String "/" temp) = temp).
    { induction a as [|c a IH]; cbn [append tail]; [cbn; clear - Hs; destruct temp as [|c t]; [reflexivity|]; cbn in *; now rewrite Hs|].
      replace (has_slash (a ++ String "/" temp)) with true; [rewrite orb_true_r; exact IH|]. clear. induction a as [|x a IH]; cbn; [reflexivity|rewrite <- IH; now rewrite orb_true_r]. }
    destruct (_ || _) eqn:B; [|apply G]. destruct cwd as [|c l]; [exact (G "")|]. exfalso. apply orb_true_iff in B. destruct B as [B|B]; [discriminate B|].
    apply endswith_slash in B. destruct B as [b B]. clear - Hc B. change (abs_string (c :: l)) with (slashed (c :: l)) in B.
    assert (L : forall l b, Forall is_name l -> slashed l = b ++ "/" -> False); [|exact (L _ _ Hc B)]. clear. induction l as [|c l IH]; intros b H E; [destruct b; discriminate E|].
    inversion H as [|? ? Hc Hl]; subst. destruct l as [|c2 l].
    - cbn [slashed append] in E. rewrite app_nil_s in E. destruct b as [|x b]; cbn in E; apply cons_inj in E; destruct E as [_ E]; [now destruct Hc|]. destruct Hc as (_ & _ & _ & Hc). rewrite E in Hc. clear - Hc. induction b as [|y b IH]; cbn in Hc; [discriminate|]. apply orb_false_iff in Hc. now apply IH.
    - assert (S2 : exists b2, slashed (c2 :: l) = b2 ++ "/"); [|destruct S2 as [b2 E2]; exact (IH _ Hl E2)]. clear IH.
      change (slashed (c :: c2 :: l)) with (String "/" (c ++ slashed (c2 :: l))) in E. destruct b as [|x b]; cbn [append] in E; apply cons_inj in E; destruct E as [_ E].
      { destruct Hc as (Hc & _). destruct c; [contradiction|discriminate E]. }
      assert (Sn : slashed (c2 :: l) <> "") by discriminate. revert E. generalize (slashed (c2 :: l)) Sn. clear. intros t Sn. revert b. induction c as [|x c IH]; intros b E; [now exists b|]. destruct b as [|y b]; cbn in E; apply cons_inj in E; destruct E as [E1 E].
      + destruct c; [|discriminate E]. cbn in E. contradiction.
      + exact (IH _ E). }
  assert (Main : studio_file cwd temp f = (if isabs f then walk [] f else walk cwd f) /\ studio_mesh cwd temp f = studio_file cwd temp f).
  { assert (N : is_name (tail (studio_temp cwd temp))) by (rewrite Tt; exact Ht).
    destruct (C132_command_line cwd (studio_temp cwd temp) f N) as [A B]. rewrite Rt, removelast_last in A. split; [exact A|exact B]. }
  split; [exact (proj1 Main)|]. split; [exact (proj2 Main)|]. intros E. rewrite (proj1 Main), (proj1 (C132_command_line cwd doc f Hd)), E. reflexivity.
Qed.
Print Assumptions C132_studio_partial.

(** An uploaded data file is the file that the announced name means on the command line; in the
    studio it is, when the document lies in the directory in which the studio was started. *)
Lemma slash_bool s : has_slash s = false <-> ~ FilesProps.has_slash s.
Proof.
  induction s as [|c s IH]; cbn; [tauto|]. rewrite orb_false_iff, IH, Ascii.eqb_neq. tauto.
Qed.
Theorem C132_upload_partial : forall cwd temp doc fs name content,
  Forall is_name cwd -> is_name temp -> is_name (tail doc) -> is_name name -> data_suffix name -> exists fs',
  upload (Some (resolve cwd doc)) fs name content = (fs', Some name) /\ fs' (cli_file cwd doc name) = Some content /\
  (removelast (resolve cwd doc) = cwd -> fs' (studio_file cwd temp name) = Some content).
Proof.
  intros cwd temp doc fs name content Hc Ht Hd Hn Hs. pose proof Hn as (N1 & _ & _ & N2).
  destruct (C100_upload_saved (resolve cwd doc) fs "" name content (proj1 (slash_bool name) N2) Hs) as (fs' & U & _ & V).
  exists fs'. split; [exact U|].
  assert (Ab : isabs name = false). { destruct name; [contradiction|]. cbn in *. now apply orb_false_iff in N2. }
  assert (Cl : cli_file cwd doc name = sibling (resolve cwd doc) name). { rewrite (proj1 (C132_command_line cwd doc name Hd)), Ab. now apply walk_name. }
  split; [now rewrite Cl|]. intros E. rewrite (proj2 (proj2 (C132_studio_partial cwd temp doc name Hc Ht Hd)) E), Cl. exact V.
Qed.
Print Assumptions C132_upload_partial.

(** Started elsewhere, the studio does not find what was uploaded through it, and a document with
    its data beside it that the command line traces is refused by the studio. *)
Theorem C132_studio_refuted : exists cwd temp doc fs name content fs',
  Forall is_name cwd /\ is_name temp /\ is_name (tail doc) /\ is_name name /\ data_suffix name /\ (forall q, fs q = None) /\
  upload (Some (resolve cwd doc)) fs name content = (fs', Some name) /\
  fs' (cli_file cwd doc name) = Some content /\ fs' (studio_file cwd temp name) = None.
Proof.
  exists ["home"; "user"], "tmpx.yml", "scenes/lsc.yml", (fun _ => None), "dye.csv", "0,1,2".
  eexists. split; [repeat constructor; discriminate|]. do 3 (split; [repeat split; discriminate|]).
  split; [apply data_suffix_spec; reflexivity|]. split; [reflexivity|]. split; [reflexivity|]. split; reflexivity.
Qed.
Print Assumptions C132_studio_refuted.

(** *** Reading *)
Definition table (index : list cell) (l : list (R * R)) (rest : list (list cell)) : list (list cell) :=
  map (fun '(i, (xy, r)) => i :: Num (fst xy) :: Num (snd xy) :: r) (combine index (combine l rest)).
(** A table of a header and three or more columns gives its second and third column, row by row, and nothing else. *)
Theorem C132_table : forall header index l rest, (3 <= List.length header)%nat -> List.length index = List.length l -> List.length rest = List.length l ->
  load_csv (header :: table index l rest) = Spectrum l.
Proof.
  intros header index l rest Hh Hi Hr. unfold load_csv. rewrite (proj2 (Nat.ltb_ge _ _) Hh). clear Hh. revert index rest Hi Hr.
  induction l as [|xy l IH]; intros [|i index] [|r rest] Hi Hr; try discriminate; [reflexivity|]. cbn in Hi, Hr. unfold table. cbn [combine map load_rows]. fold (table index l rest).
  rewrite IH by congruence. now destruct xy.
Qed.
Print Assumptions C132_table.

(** Two columns are refused, in particular the spectra that the command line writes. *)
Theorem C132_two_columns_refused : forall name result, load_csv (output_csv name result) = Refused.
Proof. reflexivity. Qed.
Print Assumptions C132_two_columns_refused.
(** With one more column in front, for example row numbers, the same file is read as the result that was written. *)
Theorem C132_numbered_output : forall name result numbers, List.length numbers = S (List.length result) ->
  load_csv (map (fun '(i, row) => i :: row) (combine numbers (output_csv name result))) = Spectrum result.
Proof.
  intros name result [|i numbers] H; [discriminate|]. injection H as H. cbn [output_csv combine map load_csv List.length Nat.ltb Nat.leb].
  revert numbers H. induction result as [|[x y] result IH]; intros [|j numbers] H; try discriminate; [reflexivity|]. injection H as H.
  cbn [output_rows combine map load_rows]. now rewrite IH.
Qed.
Print Assumptions C132_numbered_output.
(** Without a header the first row is lost. *)
Theorem C132_first_row_lost : forall i x y index l rest, List.length index = List.length l -> List.length rest = List.length l ->
  load_csv (table (i :: index) ((x, y) :: l) ([] :: rest)) = Spectrum l.
Proof.
  intros i x y index l rest Hi Hr. change (table (i :: index) ((x, y) :: l) ([] :: rest)) with ([i; Num x; Num y] :: table index l rest).
  apply C132_table; [apply le_n|exact Hi|exact Hr].
Qed.
Print Assumptions C132_first_row_lost.

(** The document of the tests (tests/data/pvtrace-scene-spec.yml 104) and its spectrum, from two directories. *)
Example C132_example :
  cli_file ["home"; "repo"] "tests/data/pvtrace-scene-spec.yml" "./subfolder/mock-spectrum.csv" = ["home"; "repo"; "tests"; "data"; "subfolder"; "mock-spectrum.csv"] /\
  cli_file ["home"; "repo"] "tests/data//pvtrace-scene-spec.yml" "../other/./x.csv" = ["home"; "repo"; "tests"; "other"; "x.csv"] /\
  cli_file ["home"; "repo"; "tests"; "data"] "pvtrace-scene-spec.yml" "./subfolder/mock-spectrum.csv" = ["home"; "repo"; "tests"; "data"; "subfolder"; "mock-spectrum.csv"] /\
  cli_file ["home"; "repo"] "/data/scene.yml" "/usr/x.csv" = ["usr"; "x.csv"] /\ cli_mesh ["home"] "/data/scene.yml" "m/x.stl" = ["data"; "m"; "x.stl"] /\
  studio_file ["home"; "repo"] "tmpx.yml" "./subfolder/mock-spectrum.csv" = ["home"; "repo"; "subfolder"; "mock-spectrum.csv"] /\
  load_csv [[Word ""; Word "x"; Word "y"]; [Num 0; Num 200; Num 1]; [Num 1; Num 400; Num 1]] = Spectrum [(200, 1); (400, 1)]%R /\
  load_csv [[Word ""; Word "x"; Word "y"]; [Num 0; Num 200; Word "one"]] = Words.
Proof. repeat split; reflexivity. Qed.
