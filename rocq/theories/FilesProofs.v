(** Proofs about reading and writing files (C69, C70). *)
From Coq Require Import String Lia.
From Verif Require Import Base Tokenizers SpecTokenizers Utf8Proofs TokenizersProofs Lines Markup SpecMarkup MarkupProofs MarkupCli MarkupStrike
  OutputChars Files SpecFiles.
Local Open Scope Z_scope.
Local Open Scope list_scope.

#[local] Existing Instance TeqOk_list.

(** reading *)
Lemma newlines_forall (Q : Z -> Prop) : Q 10 -> forall n s, (length s <= n)%nat -> Forall Q s -> Forall Q (universal_newlines s).
Proof.
  intros Q10. induction n as [|n IH]; intros s L F; destruct s as [|c s]; cbn in *; try constructor; try lia.
  inversion F as [|? ? H F']; subst. destruct (c =? 13).
  - constructor; [assumption|]. destruct s as [|d s]; [constructor|]. inversion F'; subst.
    destruct (d =? 10); apply IH; cbn in *; auto; lia.
  - constructor; [assumption|]. apply IH; auto; lia.
Qed.
Lemma newlines_no_cr : forall n s, (length s <= n)%nat -> ~ In 13 (universal_newlines s).
Proof.
  induction n as [|n IH]; intros s L; destruct s as [|c s]; cbn in *; try tauto; try lia.
  destruct (Z.eqb_spec c 13); cbn.
  - intros [E|E]; [lia|]. destruct s as [|d s]; [exact E|]. destruct (d =? 10); revert E; apply IH; cbn in *; lia.
  - intros [E|E]; [congruence|]. revert E. apply IH; lia.
Qed.
Lemma newlines_id s : ~ In 13 s -> universal_newlines s = s.
Proof.
  induction s as [|c s IH]; cbn; [reflexivity|]. intros H.
  destruct (Z.eqb_spec c 13) as [->|N]; [exfalso; tauto|]. f_equal. apply IH. tauto.
Qed.
Lemma byte_scalar b : 0 <= b < 256 -> scalar_value b.
Proof. unfold scalar_value; lia. Qed.
Lemma read_scalar b : Forall (fun x => 0 <= x < 256) b -> Forall scalar_value (read_text b).
Proof.
  intros H. unfold read_text. eapply newlines_forall; [unfold scalar_value; lia|reflexivity|].
  destruct (utf8_decode b) as [s|] eqn:E; [now apply utf8_decode_ok in E|].
  eapply Forall_impl; [|exact H]. intros; now apply byte_scalar.
Qed.
Lemma read_no_cr b : ~ In 13 (read_text b).
Proof. unfold read_text. eapply newlines_no_cr; reflexivity. Qed.
Lemma read_utf8 s : Forall scalar_value s -> read_text (flat_map utf8_char s) = universal_newlines s.
Proof. intros F. unfold read_text. now rewrite utf8_decode_encode. Qed.
Lemma get_text_ok fs names : Forall (fun n => dmem fs n = true) names ->
  exists ts, get_text fs names = Ok ts /\ Forall2 (fun n t => exists b, dget fs n = Some b /\ t = read_text b) names ts.
Proof.
  induction 1 as [|n names H F [ts [E R]]]; cbn; [exists []; split; auto|].
  unfold dmem in H. destruct (dget fs n) as [b|] eqn:G; [|discriminate]. rewrite E. cbn [bind].
  exists (read_text b :: ts). split; [reflexivity|]. constructor; [exists b; now split|assumption].
Qed.
Lemma scalar_real s : Forall scalar_value s -> real_text s.
Proof. intros H. unfold real_text. eapply Forall_impl; [|exact H]. unfold scalar_value; intros; cbn in *; lia. Qed.

(** writing *)
Section Writing.
Variable linesep : list Z.
Hypothesis SEP : a_linesep linesep.
Lemma linesep_scalar : Forall scalar_value linesep.
Proof. destruct SEP as [-> | [-> | ->]]; repeat constructor; unfold scalar_value; lia. Qed.
Lemma translate_scalar s : Forall scalar_value s -> Forall scalar_value (translate linesep s).
Proof.
  unfold translate. induction 1 as [|c s H F IH]; cbn; [constructor|]. apply Forall_app; split; [|assumption].
  destruct (c =? 10); [apply linesep_scalar|apply Forall_cons; [assumption|apply Forall_nil]].
Qed.
Lemma encode_scalar s : Forall scalar_value s -> utf8_encode s = Ok (flat_map utf8_char s).
Proof.
  intros F. unfold utf8_encode. destruct (existsb is_surrogate s) eqn:E; [|reflexivity]. exfalso.
  apply existsb_exists in E as [c [I E]]. rewrite Forall_forall in F. specialize (F c I).
  unfold is_surrogate, scalar_value in *. lia.
Qed.
Lemma write_ok chunks : Forall (Forall scalar_value) chunks ->
  write_all linesep chunks = (flat_map utf8_char (translate linesep (concat chunks)), None).
Proof.
  induction 1 as [|s chunks H F IH]; [reflexivity|]. cbn [write_all concat].
  rewrite encode_scalar by now apply translate_scalar. rewrite IH.
  unfold translate. now rewrite !flat_map_app.
Qed.
Lemma newlines_translate s : ~ In 13 s -> universal_newlines (translate linesep s) = s.
Proof.
  destruct SEP as [-> | [-> | ->]]; clear.
  - intros H. unfold translate.
    replace (flat_map (fun c => if c =? 10 then [10] else [c]) s) with s; [now apply newlines_id|].
    clear H. induction s as [|c s IH]; cbn; [reflexivity|]. destruct (Z.eqb_spec c 10) as [->|]; cbn; now f_equal.
  - unfold translate. induction s as [|c s IH]; cbn; [reflexivity|]. intros H. destruct (Z.eqb_spec c 10) as [->|N]; cbn.
    + f_equal. apply IH. tauto.
    + destruct (Z.eqb_spec c 13) as [->|]; [tauto|]. f_equal. apply IH. tauto.
  - unfold translate. induction s as [|c s IH]; cbn; [reflexivity|]. intros H. destruct (Z.eqb_spec c 10) as [->|N]; cbn.
    + f_equal. destruct s as [|d s]; [reflexivity|]. cbn in *. destruct (Z.eqb_spec d 10) as [->|M]; cbn in *.
      * apply IH. tauto.
      * destruct (Z.eqb_spec d 10); [lia|]. apply IH. tauto.
    + destruct (Z.eqb_spec c 13) as [->|]; [tauto|]. f_equal. apply IH. tauto.
Qed.
(** what is written is read back *)
Lemma write_read chunks : Forall (Forall scalar_value) chunks -> ~ In 13 (concat chunks) ->
  exists b, write_all linesep chunks = (b, None) /\ read_text b = concat chunks.
Proof.
  intros F N. eexists. split; [now apply write_ok|].
  rewrite read_utf8; [now apply newlines_translate|]. apply translate_scalar. now apply concat_P.
Qed.
Lemma no_cr_concat (l : list (list Z)) : Forall (Forall (fun c => c <> 13)) l -> ~ In 13 (concat l).
Proof. intros F H. apply concat_P in F. rewrite Forall_forall in F. now apply (F 13 H). Qed.
Lemma not_in_forall (s : list Z) : ~ In 13 s -> Forall (fun c => c <> 13) s.
Proof. intros H. apply Forall_forall. intros x I ->. now apply H. Qed.

Lemma basename_sub : forall s acc c, In c (basename_loop s acc) -> In c s \/ In c acc.
Proof.
  induction s as [|x s IH]; intros acc c; cbn [basename_loop]; [intros H; right; now apply in_rev|].
  destruct (x =? 47); intros H; apply IH in H as [H|H]; cbn in *; tauto.
Qed.
Lemma basename_forall Q s : Forall Q s -> Forall Q (basename s).
Proof.
  intros F. apply Forall_forall. intros c H. apply basename_sub in H as [H|[]]. rewrite Forall_forall in F. auto.
Qed.

Lemma dget_same fs name b : same_but name fs (dset fs name b) /\ dget (dset fs name b) name = Some b.
Proof.
  split.
  - intros n H. rewrite dget_dset_other; auto.
  - apply dget_dset_same.
Qed.

Definition SC := Forall scalar_value.
Lemma scalar_ascii c : 32 <= c < 127 \/ c = 10 -> scalar_value c.
Proof. unfold scalar_value; lia. Qed.
Lemma nocr_ascii c : 32 <= c < 127 \/ c = 10 -> c <> 13.
Proof. lia. Qed.
Lemma plain_base n : plain_name n -> SC (basename n) /\ Forall (fun c => c <> 13) (basename n).
Proof. intros [A B]. split; apply basename_forall; [assumption|now apply not_in_forall]. Qed.
Lemma read_all fs n b : real_files fs -> dget fs n = Some b ->
  SC (read_text b) /\ real_text (read_text b) /\ Forall (fun c => c <> 13) (read_text b).
Proof.
  intros R G. pose proof (read_scalar b (R n b G)) as S0. repeat split; [assumption|now apply scalar_real|].
  apply not_in_forall, read_no_cr.
Qed.

Variable re_w space : Z -> bool.
Lemma two_texts fs o n1 n2 b1 b2 out : dget fs n1 = Some b1 -> dget fs n2 = Some b2 ->
  diff_files linesep re_w space fs o n1 n2 out =
  write_file linesep fs out (snd (diff_cli re_w space (with_output o) (read_text b1) (read_text b2) (basename n1) (basename n2) initial_styles)).
Proof. intros G1 G2. unfold diff_files. cbn [get_text]. now rewrite G1, G2. Qed.
Lemma three_texts fs o n1 n2 n3 b1 b2 b3 out : dget fs n1 = Some b1 -> dget fs n2 = Some b2 -> dget fs n3 = Some b3 ->
  merge_files linesep re_w space fs o n1 n2 n3 out =
  write_file linesep fs out (snd (merge_cli re_w space (with_output o) (read_text b1) (read_text b2) (read_text b3)
                                   (basename n1) (basename n2) (basename n3) initial_styles)).
Proof. intros G1 G2 G3. unfold merge_files. cbn [get_text]. now rewrite G1, G2, G3. Qed.

Lemma write_file_ok fs out chunks : Forall SC chunks -> ~ In 13 (concat chunks) ->
  exists fs' b, write_file linesep fs out (chunks, None) = (fs', None) /\ same_but out fs fs' /\
    dget fs' out = Some b /\ read_text b = concat chunks.
Proof.
  intros F N. destruct (write_read chunks F N) as [b [E R]]. unfold write_file. cbn [fst snd]. rewrite E.
  exists (dset fs out b), b. destruct (dget_same fs out b) as [A B]. repeat split; auto.
Qed.

Theorem diff_files_written fs o n1 n2 b1 b2 out : real_files fs -> plain_name n1 -> plain_name n2 ->
  o_strikeout o = false -> dget fs n1 = Some b1 -> dget fs n2 = Some b2 ->
  exists fs' b chunks, diff_files linesep re_w space fs o n1 n2 out = (fs', None) /\
    snd (diff_cli re_w space (with_output o) (read_text b1) (read_text b2) (basename n1) (basename n2) initial_styles)
      = (chunks, None) /\
    same_but out fs fs' /\ dget fs' out = Some b /\ read_text b = concat chunks.
Proof.
  intros R P1 P2 St G1 G2. rewrite (two_texts fs o n1 n2 b1 b2 out G1 G2).
  destruct (read_all fs n1 b1 R G1) as [S1 [T1 C1]]. destruct (read_all fs n2 b2 R G2) as [S2 [T2 C2]].
  destruct (plain_base n1 P1) as [N1 M1]. destruct (plain_base n2 P2) as [N2 M2].
  pose proof (diff_no_strikeout space re_w (with_output o) (read_text b1) (read_text b2) (basename n1) (basename n2) St T1 T2) as E.
  pose proof (diff_chars scalar_value scalar_ascii re_w space (with_output o) _ _ _ _ eq_refl St T1 T2 S1 S2 N1 N2) as X.
  pose proof (diff_chars (fun c => c <> 13) nocr_ascii re_w space (with_output o) _ _ _ _ eq_refl St T1 T2 C1 C2 M1 M2) as Y.
  destruct (snd (diff_cli re_w space (with_output o) (read_text b1) (read_text b2) (basename n1) (basename n2) initial_styles)) as [chunks e].
  cbn [fst snd] in *. subst e. destruct (write_file_ok fs out chunks X (no_cr_concat _ Y)) as [fs' [b [H1 H2]]].
  exists fs', b, chunks. tauto.
Qed.
Theorem merge_files_written fs o n1 n2 n3 b1 b2 b3 out : real_files fs -> plain_name n1 -> plain_name n2 -> plain_name n3 ->
  o_strikeout o = false -> dget fs n1 = Some b1 -> dget fs n2 = Some b2 -> dget fs n3 = Some b3 ->
  exists fs' b chunks, merge_files linesep re_w space fs o n1 n2 n3 out = (fs', None) /\
    snd (merge_cli re_w space (with_output o) (read_text b1) (read_text b2) (read_text b3)
           (basename n1) (basename n2) (basename n3) initial_styles) = (chunks, None) /\
    same_but out fs fs' /\ dget fs' out = Some b /\ read_text b = concat chunks.
Proof.
  intros R P1 P2 P3 St G1 G2 G3. rewrite (three_texts fs o n1 n2 n3 b1 b2 b3 out G1 G2 G3).
  destruct (read_all fs n1 b1 R G1) as [S1 [T1 C1]]. destruct (read_all fs n2 b2 R G2) as [S2 [T2 C2]].
  destruct (read_all fs n3 b3 R G3) as [S3 [T3 C3]].
  destruct (plain_base n1 P1) as [N1 M1]. destruct (plain_base n2 P2) as [N2 M2]. destruct (plain_base n3 P3) as [N3 M3].
  pose proof (merge_no_strikeout space re_w (with_output o) (read_text b1) (read_text b2) (read_text b3) (basename n1) (basename n2) (basename n3) St T1 T2 T3) as E.
  pose proof (merge_chars scalar_value scalar_ascii re_w space (with_output o) _ _ _ _ _ _ eq_refl St T1 T2 T3 S1 S2 S3 N1 N2 N3) as X.
  pose proof (merge_chars (fun c => c <> 13) nocr_ascii re_w space (with_output o) _ _ _ _ _ _ eq_refl St T1 T2 T3 C1 C2 C3 M1 M2 M3) as Y.
  destruct (snd (merge_cli re_w space (with_output o) (read_text b1) (read_text b2) (read_text b3) (basename n1) (basename n2) (basename n3) initial_styles)) as [chunks e].
  cbn [fst snd] in *. subst e. destruct (write_file_ok fs out chunks X (no_cr_concat _ Y)) as [fs' [b [H1 H2]]].
  exists fs', b, chunks. tauto.
Qed.

Theorem missing_diff fs o n1 n2 out : dget fs n1 = None \/ dget fs n2 = None ->
  diff_files linesep re_w space fs o n1 n2 out = (fs, Some OSError).
Proof.
  intros H. unfold diff_files. cbn [get_text]. destruct (dget fs n1); [|reflexivity].
  destruct (dget fs n2); [|reflexivity]. destruct H; discriminate.
Qed.
Theorem missing_merge fs o n1 n2 n3 out : dget fs n1 = None \/ dget fs n2 = None \/ dget fs n3 = None ->
  merge_files linesep re_w space fs o n1 n2 n3 out = (fs, Some OSError).
Proof.
  intros H. unfold merge_files. cbn [get_text]. destruct (dget fs n1); [|reflexivity].
  destruct (dget fs n2); [|reflexivity]. destruct (dget fs n3); [|reflexivity]. destruct H as [H|[H|H]]; discriminate.
Qed.
Theorem merge_files_clean fs o n1 n2 n3 b1 b2 b3 out m : real_files fs -> plain_name n1 -> plain_name n2 -> plain_name n3 ->
  o_strikeout o = false -> o_diff o = false -> o_show_lines o = false -> o_git o = false ->
  dget fs n1 = Some b1 -> dget fs n2 = Some b2 -> dget fs n3 = Some b3 ->
  merge_result re_w o (read_text b1) (read_text b2) (read_text b3) = Ok m -> Forall (fun i => exists s, i = TText s) m ->
  exists fs' b, merge_files linesep re_w space fs o n1 n2 n3 out = (fs', None) /\
    same_but out fs fs' /\ dget fs' out = Some b /\ read_text b = text_after m.
Proof.
  intros R P1 P2 P3 St Df Sl Gi G1 G2 G3 E F.
  destruct (read_all fs n1 b1 R G1) as [_ [T1 _]]. destruct (read_all fs n2 b2 R G2) as [_ [T2 _]].
  destruct (read_all fs n3 b3 R G3) as [_ [T3 _]].
  destruct (merge_files_written fs o n1 n2 n3 b1 b2 b3 out R P1 P2 P3 St G1 G2 G3) as [fs' [b [ch [H1 [H2 [H3 [H4 H5]]]]]]].
  destruct (merge_prints space re_w (with_output o) _ _ _ (basename n1) (basename n2) (basename n3) m eq_refl Df Sl Gi T1 T2 T3 E F) as [ch' [H6 H7]].
  rewrite H2 in H6. injection H6 as <-. exists fs', b. rewrite H5, H7. tauto.
Qed.
Theorem merge_files_one fs o n1 n2 n3 b1 b2 b3 out : real_files fs -> plain_name n1 -> plain_name n2 -> plain_name n3 ->
  o_strikeout o = false -> o_diff o = false -> o_show_lines o = false -> o_git o = false ->
  dget fs n1 = Some b1 -> dget fs n2 = Some b2 -> dget fs n3 = Some b3 ->
  exists fs' b, merge_files linesep re_w space fs o n1 n2 n3 out = (fs', None) /\
    same_but out fs fs' /\ dget fs' out = Some b /\
    (read_text b2 = read_text b1 -> read_text b = read_text b3) /\
    (read_text b3 = read_text b1 \/ read_text b3 = read_text b2 -> read_text b = read_text b2).
Proof.
  intros R P1 P2 P3 St Df Sl Gi G1 G2 G3.
  destruct (read_all fs n1 b1 R G1) as [_ [T1 _]]. destruct (read_all fs n2 b2 R G2) as [_ [T2 _]].
  destruct (read_all fs n3 b3 R G3) as [_ [T3 _]].
  destruct (merge_files_written fs o n1 n2 n3 b1 b2 b3 out R P1 P2 P3 St G1 G2 G3) as [fs' [b [ch [H1 [H2 [H3 [H4 H5]]]]]]].
  destruct (merge_prints_one space re_w (with_output o) _ _ _ (basename n1) (basename n2) (basename n3) eq_refl Df Sl Gi T1 T2 T3) as [ch' [H6 H7]].
  rewrite H2 in H6. injection H6 as <-. exists fs', b. rewrite H5. tauto.
Qed.
End Writing.

(** bytes *)
Lemma unix_translate s : translate [10] s = s.
Proof.
  unfold translate. induction s as [|c s IH]; cbn; [reflexivity|]. destruct (Z.eqb_spec c 10) as [->|]; cbn; now f_equal.
Qed.
Lemma read_bytes b : is_utf8 b -> ~ In 13 b -> flat_map utf8_char (read_text b) = b.
Proof.
  intros [s [F ->]] N. rewrite read_utf8, newlines_id; auto. intros I. apply N. apply in_flat_map. exists 13. now split; [|left].
Qed.
Theorem merge_files_bytes re_w space fs o n1 n2 n3 b1 b2 b3 out : real_files fs -> plain_name n1 -> plain_name n2 -> plain_name n3 ->
  o_strikeout o = false -> o_diff o = false -> o_show_lines o = false -> o_git o = false ->
  dget fs n1 = Some b1 -> dget fs n2 = Some b2 -> dget fs n3 = Some b3 ->
  b2 = b1 -> is_utf8 b3 -> ~ In 13 b3 ->
  exists fs', merge_files [10] re_w space fs o n1 n2 n3 out = (fs', None) /\ dget fs' out = Some b3.
Proof.
  intros R P1 P2 P3 St Df Sl Gi G1 G2 G3 -> U N. assert (SEP : a_linesep [10]) by now left.
  destruct (read_all fs n1 b1 R G1) as [S1 [T1 _]]. destruct (read_all fs n3 b3 R G3) as [S3 [T3 _]].
  destruct (plain_base n1 P1) as [N1 _]. destruct (plain_base n2 P2) as [N2 _]. destruct (plain_base n3 P3) as [N3 _].
  pose proof (merge_chars scalar_value scalar_ascii re_w space (with_output o) _ _ _ _ _ _ eq_refl St T1 T1 T3 S1 S1 S3 N1 N2 N3) as X.
  destruct (merge_prints_one space re_w (with_output o) _ _ _ (basename n1) (basename n2) (basename n3) eq_refl Df Sl Gi T1 T1 T3) as [ch [H1 [H2 _]]].
  specialize (H2 eq_refl). rewrite (three_texts [10] re_w space fs o n1 n2 n3 b1 b1 b3 out G1 G2 G3).
  rewrite H1 in *. cbn [fst] in X. unfold write_file. cbn [fst snd]. rewrite (write_ok [10] SEP ch X), H2, unix_translate.
  rewrite read_bytes by assumption. eexists; split; [reflexivity|]. apply dget_same.
Qed.
Theorem merge_files_copies linesep re_w space fs o n1 n2 n3 b1 b2 b3 out : a_linesep linesep ->
  real_files fs -> plain_name n1 -> plain_name n2 -> plain_name n3 ->
  o_strikeout o = false -> o_diff o = false -> o_show_lines o = false -> o_git o = false ->
  dget fs n1 = Some b1 -> dget fs n2 = Some b2 -> dget fs n3 = Some b3 ->
  exists fs' b, merge_files linesep re_w space fs o n1 n2 n3 out = (fs', None) /\ dget fs' out = Some b /\
    (read_text b2 = read_text b1 -> (b = b3 <-> platform_text linesep b3)) /\
    (read_text b3 = read_text b1 \/ read_text b3 = read_text b2 -> (b = b2 <-> platform_text linesep b2)).
Proof.
  intros SEP R P1 P2 P3 St Df Sl Gi G1 G2 G3.
  destruct (read_all fs n1 b1 R G1) as [S1 [T1 _]]. destruct (read_all fs n2 b2 R G2) as [S2 [T2 _]]. destruct (read_all fs n3 b3 R G3) as [S3 [T3 _]].
  destruct (plain_base n1 P1) as [N1 _]. destruct (plain_base n2 P2) as [N2 _]. destruct (plain_base n3 P3) as [N3 _].
  pose proof (merge_chars scalar_value scalar_ascii re_w space (with_output o) _ _ _ _ _ _ eq_refl St T1 T2 T3 S1 S2 S3 N1 N2 N3) as X.
  destruct (merge_prints_one space re_w (with_output o) _ _ _ (basename n1) (basename n2) (basename n3) eq_refl Df Sl Gi T1 T2 T3) as [ch [H1 [H2 H3]]].
  rewrite (three_texts linesep re_w space fs o n1 n2 n3 b1 b2 b3 out G1 G2 G3).
  rewrite H1 in *. cbn [fst] in X. unfold write_file. cbn [fst snd]. rewrite (write_ok linesep SEP ch X).
  eexists _, _. split; [reflexivity|]. split; [apply dget_same|].
  assert (Y : forall b, SC (read_text b) -> concat ch = read_text b ->
    (flat_map utf8_char (translate linesep (concat ch)) = b <-> platform_text linesep b)).
  { intros b Sb ->. split.
    - intros <-. eexists. split; [exact Sb|]. split; [apply read_no_cr|reflexivity].
    - intros (t & St' & Nt & ->). fold (translate linesep t). rewrite read_utf8 by (apply translate_scalar; assumption).
      now rewrite (newlines_translate linesep SEP t Nt). }
  split; intros Q; (apply Y; [assumption|]); auto.
Qed.
Theorem bytes_read fs names : Forall (fun n => dmem fs n = true) names ->
  exists bs, get_bytes fs names = Ok bs /\ Forall2 (fun n b => dget fs n = Some b) names bs /\
    get_text fs names = Ok (map read_text bs).
Proof.
  induction 1 as [|n names Hn F IH]; [exists []; repeat constructor|].
  destruct IH as (bs & G & B & X). unfold dmem in Hn. cbn [get_bytes get_text].
  destruct (dget fs n) as [b|] eqn:Eb; [|discriminate]. exists (b :: bs). rewrite G, X. cbn. repeat split. now constructor.
Qed.
Theorem bytes_missing fs names n : In n names -> dget fs n = None -> get_bytes fs names = Err OSError.
Proof.
  induction names as [|x names IH]; intros Hi Hn; [destruct Hi|]. cbn [get_bytes].
  destruct Hi as [->|Hi]; [now rewrite Hn|]. destruct (dget fs x); [|reflexivity]. now rewrite (IH Hi Hn).
Qed.
Theorem every_file_reads fs names : real_files fs -> Forall (fun n => dmem fs n = true) names ->
  exists ts, get_text fs names = Ok ts /\ length ts = length names /\
    Forall (fun t => Forall scalar_value t /\ ~ In 13 t) ts.
Proof.
  intros R F. destruct (get_text_ok fs names F) as [ts [E H]]. exists ts. split; [assumption|]. clear F E.
  induction H as [|n t names ts [b [G ->]] H IH]; [split; [reflexivity|constructor]|].
  destruct IH as [L F]. split; [cbn; congruence|]. constructor; [|assumption].
  split; [exact (read_scalar b (R n b G))|apply read_no_cr].
Qed.
Theorem missing_files linesep re_w space fs o n1 n2 n3 out :
  (dget fs n1 = None \/ dget fs n2 = None -> diff_files linesep re_w space fs o n1 n2 out = (fs, Some OSError)) /\
  (dget fs n1 = None \/ dget fs n2 = None \/ dget fs n3 = None ->
   merge_files linesep re_w space fs o n1 n2 n3 out = (fs, Some OSError)).
Proof. split; [apply missing_diff|apply missing_merge]. Qed.
Theorem same_bytes b b' : is_utf8 b -> is_utf8 b' -> ~ In 13 b -> ~ In 13 b' -> read_text b = read_text b' -> b = b'.
Proof. intros U U' N N' E. rewrite <- (read_bytes b), <- (read_bytes b'); congruence || assumption. Qed.

(** checking concrete files *)
Definition byteb (x : Z) : bool := (0 <=? x) && (x <? 256).
Lemma real_files_check fs : forallb (fun p => forallb byteb (snd p)) fs = true -> real_files fs.
Proof.
  intros H n b G. apply dget_In in G. rewrite forallb_forall in H. specialize (H _ G). cbn in H.
  apply Forall_forall. intros x I. rewrite forallb_forall in H. specialize (H x I). unfold byteb in H. lia.
Qed.
Lemma plain_check n : forallb (fun x => (0 <=? x) && (x <? 128) && negb (x =? 13)) n = true -> plain_name n.
Proof.
  intros H. rewrite forallb_forall in H. split.
  - apply Forall_forall. intros x I. specialize (H x I). unfold scalar_value. lia.
  - intros I. specialize (H 13 I). discriminate.
Qed.
Definition crlf_files : files := [([112], [97]); ([99], [97]); ([116], [97; 13; 10; 98])].
Definition latin1_files : files := [([112], [97]); ([99], [97]); ([116], [97; 233])].
Definition plainly : options := mkOptions true false false false false false false.
Theorem crlf_lost : exists fs o n1 n2 n3 b1 b3 out fs' b,
  real_files fs /\ plain_name n1 /\ plain_name n2 /\ plain_name n3 /\
  o_strikeout o = false /\ o_diff o = false /\ o_show_lines o = false /\ o_git o = false /\
  dget fs n1 = Some b1 /\ dget fs n2 = Some b1 /\ dget fs n3 = Some b3 /\ is_utf8 b3 /\
  merge_files [10] (fun _ => false) (fun _ => false) fs o n1 n2 n3 out = (fs', None) /\
  dget fs' out = Some b /\ b <> b3.
Proof.
  exists crlf_files, plainly, [112], [99], [116], [97], [97; 13; 10; 98], [111].
  exists (crlf_files ++ [([111], [97; 10; 98])]), [97; 10; 98].
  split; [apply real_files_check; vm_compute; reflexivity|].
  do 3 (split; [apply plain_check; vm_compute; reflexivity|]).
  do 7 (split; [vm_compute; reflexivity|]).
  split; [exists [97; 13; 10; 98]; split; [repeat (apply Forall_cons; [unfold scalar_value; lia|]); apply Forall_nil|reflexivity]|].
  do 2 (split; [vm_compute; reflexivity|]).
  discriminate.
Qed.
Theorem latin1_lost : exists fs o n1 n2 n3 b1 b3 out fs' b,
  real_files fs /\ plain_name n1 /\ plain_name n2 /\ plain_name n3 /\
  o_strikeout o = false /\ o_diff o = false /\ o_show_lines o = false /\ o_git o = false /\
  dget fs n1 = Some b1 /\ dget fs n2 = Some b1 /\ dget fs n3 = Some b3 /\ ~ In 13 b3 /\
  merge_files [10] (fun _ => false) (fun _ => false) fs o n1 n2 n3 out = (fs', None) /\
  dget fs' out = Some b /\ b <> b3.
Proof.
  exists latin1_files, plainly, [112], [99], [116], [97], [97; 233], [111].
  exists (latin1_files ++ [([111], [97; 195; 169])]), [97; 195; 169].
  repeat (split; [first [apply real_files_check; vm_compute; reflexivity | apply plain_check; vm_compute; reflexivity | vm_compute; reflexivity
    | cbn; intuition lia]|]).
  discriminate.
Qed.
Theorem same_text : exists b b', Forall (fun x => 0 <= x < 256) b /\ Forall (fun x => 0 <= x < 256) b' /\
  ~ In 13 b /\ ~ In 13 b' /\ read_text b = read_text b' /\ b <> b'.
Proof.
  exists [233], [195; 169]. repeat (split; [first [vm_compute; reflexivity|repeat (apply Forall_cons; [lia|]); apply Forall_nil|cbn; intuition lia]|]).
  discriminate.
Qed.

(** the name shown for a file *)
Lemma basename_loop_ok s : forall acc, ~ In 47 acc ->
  ~ In 47 (basename_loop s acc) /\
  exists d, rev acc ++ s = d ++ basename_loop s acc /\ (d = [] \/ exists e, d = e ++ [47]).
Proof.
  induction s as [|c s IH]; intros acc N; cbn [basename_loop].
  - split; [now rewrite <- in_rev|]. exists []. rewrite app_nil_r. now split; [|left].
  - destruct (Z.eqb_spec c 47) as [->|C].
    + destruct (IH [] (fun x => x)) as [A (d & E & D)]. split; [assumption|].
      exists (rev acc ++ [47] ++ d). cbn in E. rewrite E at 1. rewrite <- !app_assoc. split; [reflexivity|]. right.
      destruct D as [-> | (e & ->)]; [exists (rev acc); now rewrite app_nil_r|].
      exists (rev acc ++ [47] ++ e). now rewrite <- !app_assoc.
    + destruct (IH (c :: acc)) as [A (d & E & D)]; [cbn; intros [I|I]; [now apply C|tauto]|]. split; [assumption|].
      exists d. split; [|assumption]. rewrite <- E. cbn. now rewrite <- app_assoc.
Qed.
Lemma basename_ok n : ~ In 47 (basename n) /\ exists d, n = d ++ basename n /\ (d = [] \/ exists e, d = e ++ [47]).
Proof. exact (basename_loop_ok n [] (fun x => x)). Qed.

(** exceptions while writing *)
Lemma translate_surrogate linesep s : a_linesep linesep ->
  existsb is_surrogate (translate linesep s) = true <-> exists z, In z s /\ surrogate z.
Proof.
  intros SEP. rewrite existsb_exists. unfold translate, surrogate. split.
  - intros [z [I S]]. apply in_flat_map in I as [c [I J]]. destruct (c =? 10).
    + exfalso. assert (scalar_value z) as V.
      { pose proof (linesep_scalar linesep SEP) as F. rewrite Forall_forall in F. now apply F. }
      unfold is_surrogate, scalar_value in *. lia.
    + destruct J as [<-|[]]. exists c. split; [assumption|]. unfold is_surrogate in S. lia.
  - intros [z [I S]]. exists z. split; [|unfold is_surrogate; lia]. apply in_flat_map. exists z. split; [assumption|].
    destruct (Z.eqb_spec z 10); [lia|now left].
Qed.
Lemma write_all_written linesep (SEP : a_linesep linesep) chunks x :
  written linesep chunks x (fst (write_all linesep chunks))
    (match snd (write_all linesep chunks) with Some e => Some e | None => x end).
Proof.
  induction chunks as [|s chunks IH].
  - exists [], []. repeat split; auto; left; auto.
  - cbn [write_all]. unfold utf8_encode. destruct (existsb is_surrogate (translate linesep s)) eqn:E.
    + apply translate_surrogate in E as (z & I & S); [|assumption].
      exists [], (s :: chunks). repeat split; auto. right. exists s, chunks, z. repeat split; auto; apply S.
    + destruct (write_all linesep chunks) as [r o]. cbn [fst snd] in *.
      destruct IH as (pre & post & -> & -> & N & H). exists (s :: pre), post. split; [reflexivity|]. split; [|split].
      * cbn [concat]. unfold translate. now rewrite !flat_map_app.
      * cbn [concat]. intros z I S. apply in_app_or in I as [I|I]; [|now apply (N z)].
        assert (existsb is_surrogate (translate linesep s) = true) as K
          by (apply translate_surrogate; [assumption|now exists z]). congruence.
      * exact H.
Qed.
Lemma write_file_written linesep (SEP : a_linesep linesep) fs name out : exists b y,
  write_file linesep fs name out = (dset fs name b, y) /\ written linesep (fst out) (snd out) b y.
Proof.
  pose proof (write_all_written linesep SEP (fst out) (snd out)) as W. unfold write_file.
  destruct (write_all linesep (fst out)) as [b o]. cbn [fst snd] in W. eauto.
Qed.
Lemma diff_exceptions linesep (SEP : a_linesep linesep) re_w space fs o n1 n2 b1 b2 out chunks x :
  dget fs n1 = Some b1 -> dget fs n2 = Some b2 ->
  snd (diff_cli re_w space (with_output o) (read_text b1) (read_text b2) (basename n1) (basename n2) initial_styles)
    = (chunks, x) ->
  exists fs' b y, diff_files linesep re_w space fs o n1 n2 out = (fs', y) /\
    same_but out fs fs' /\ dget fs' out = Some b /\ written linesep chunks x b y.
Proof.
  intros H1 H2 E. unfold diff_files. cbn [get_text]. rewrite H1, H2. cbn [bind]. rewrite E.
  destruct (write_file_written linesep SEP fs out (chunks, x)) as (b & y & W & K). rewrite W.
  exists (dset fs out b), b, y. destruct (dget_same fs out b). auto.
Qed.
Lemma merge_exceptions linesep (SEP : a_linesep linesep) re_w space fs o n1 n2 n3 b1 b2 b3 out chunks x :
  dget fs n1 = Some b1 -> dget fs n2 = Some b2 -> dget fs n3 = Some b3 ->
  snd (merge_cli re_w space (with_output o) (read_text b1) (read_text b2) (read_text b3)
         (basename n1) (basename n2) (basename n3) initial_styles) = (chunks, x) ->
  exists fs' b y, merge_files linesep re_w space fs o n1 n2 n3 out = (fs', y) /\
    same_but out fs fs' /\ dget fs' out = Some b /\ written linesep chunks x b y.
Proof.
  intros H1 H2 H3 E. unfold merge_files. cbn [get_text]. rewrite H1, H2, H3. cbn [bind]. rewrite E.
  destruct (write_file_written linesep SEP fs out (chunks, x)) as (b & y & W & K). rewrite W.
  exists (dset fs out b), b, y. destruct (dget_same fs out b). auto.
Qed.
