(** Proofs for C136: gaspra-merge run once for each of several copies of a file. *)
From Coq Require Import Lia ZArith.
From Verif Require Import Base Changesets SpecDiff Merge SpecMerge SpecEdits Tokenizers SpecTokenizers SpecTokens TokensProofs
  Lines SpecLines Markup SpecMarkup MarkupProofs MarkupCli SpecMarks Rich SpecConsole ConsoleProofs Files SpecFiles OutputChars FilesProofs CommandLine SpecCommandLine CommandLineRuns
  SpecPrograms ProgramsProofs ProgramsEdits SpecOrder EditsOrderTexts SpecRuns.
Local Open Scope Z_scope.

Lemma char_bytes c : scalar_value c -> Forall (fun x => 0 <= x < 256) (utf8_char c).
Proof.
  unfold scalar_value, utf8_char. intros H.
  assert (D1 : 0 <= c / 64 /\ c / 64 * 64 <= c) by (split; [apply Z.div_pos|pose proof (Z.mul_div_le c 64)]; lia).
  assert (D2 : 0 <= c / 4096 /\ c / 4096 * 4096 <= c) by (split; [apply Z.div_pos|pose proof (Z.mul_div_le c 4096)]; lia).
  assert (D3 : 0 <= c / 262144 /\ c / 262144 * 262144 <= c) by (split; [apply Z.div_pos|pose proof (Z.mul_div_le c 262144)]; lia).
  pose proof (Z.mod_pos_bound c 64). pose proof (Z.mod_pos_bound (c / 64) 64). pose proof (Z.mod_pos_bound (c / 4096) 64).
  destruct (Z.ltb_spec c 128); [|destruct (Z.ltb_spec c 2048); [|destruct (Z.ltb_spec c 65536)]];
    repeat (apply Forall_cons; [lia|]); apply Forall_nil.
Qed.
Lemma merge_files_real linesep re_w space fs o n1 n2 n3 b1 b2 b3 out fs' x : a_linesep linesep -> real_files fs ->
  plain_name n1 -> plain_name n2 -> plain_name n3 -> o_strikeout o = false ->
  dget fs n1 = Some b1 -> dget fs n2 = Some b2 -> dget fs n3 = Some b3 ->
  merge_files linesep re_w space fs o n1 n2 n3 out = (fs', x) -> real_files fs'.
Proof.
  intros SEP R P1 P2 P3 St G1 G2 G3 H. rewrite (three_texts linesep re_w space fs o n1 n2 n3 b1 b2 b3 out G1 G2 G3) in H.
  destruct (read_all fs n1 b1 R G1) as [S1 [T1 _]]. destruct (read_all fs n2 b2 R G2) as [S2 [T2 _]].
  destruct (read_all fs n3 b3 R G3) as [S3 [T3 _]].
  destruct (plain_base n1 P1) as [N1 _]. destruct (plain_base n2 P2) as [N2 _]. destruct (plain_base n3 P3) as [N3 _].
  pose proof (merge_chars scalar_value scalar_ascii re_w space (with_output o) _ _ _ _ _ _ eq_refl St T1 T2 T3 S1 S2 S3 N1 N2 N3) as X.
  unfold write_file in H. rewrite (write_ok linesep SEP _ X) in H. injection H as <- _.
  intros n b G. destruct (teq n out) eqn:Q.
  - apply teq_ok in Q as ->. rewrite (proj2 (dget_same fs out _)) in G. injection G as <-.
    apply Forall_forall. intros y I. apply in_flat_map in I as (c & Ic & Iy).
    assert (Sc : scalar_value c).
    { assert (F : Forall scalar_value (translate linesep (concat (fst (snd (merge_cli re_w space (with_output o) (read_text b1) (read_text b2) (read_text b3)
        (basename n1) (basename n2) (basename n3) initial_styles)))))) by (apply translate_scalar; [exact SEP|now apply concat_P]).
      rewrite Forall_forall in F. now apply F. }
    pose proof (char_bytes c Sc) as F. rewrite Forall_forall in F. now apply F.
  - apply (R n). rewrite <- (proj1 (dget_same fs out (flat_map utf8_char (translate linesep (concat (fst (snd (merge_cli re_w space (with_output o) (read_text b1) (read_text b2) (read_text b3)
        (basename n1) (basename n2) (basename n3) initial_styles)))))))); [exact G|].
    intros ->. now rewrite teq_refl in Q.
Qed.

Section Runs.
Variable linesep : list Z.
Variables re_w space digit sp : Z -> bool.
Variable emoji : list Z -> option (list Z).
Variable normalize : list Z -> list Z.
Hypothesis DO : digit_ok digit.
Hypothesis SEP : a_linesep linesep.
Notation merge_program := (gaspra_merge linesep re_w space digit sp emoji normalize).

(** one run writes what the merge of the texts is *)
Lemma one_run o fs parent out from argv b1 b2 b3 m : real_files fs -> merges_into digit o parent out from argv ->
  plain_name parent -> plain_name from -> plain_name out -> out <> [] ->
  dget fs parent = Some b1 -> dget fs from = Some b2 -> dget fs out = Some b3 ->
  merge_result re_w o (read_text b1) (read_text b3) (read_text b2) = Ok [TText (CStr m)] ->
  exists fs' b, merge_program argv fs = (fs', Ran [] None) /\ real_files fs' /\ same_but out fs fs' /\ dget fs' out = Some b /\ read_text b = m.
Proof.
  intros RF (l & SP & O & C & L & NS & ND & N1 & N2 & A) P1 P2 P3 NE G1 G2 G3 H.
  destruct (merge_written linesep re_w space digit sp emoji normalize DO argv l fs parent from out out b1 b2 b3 SEP RF SP O C L NE NS P1 P2 P3 G1 G2 G3)
    as (fs' & b & k' & tp & ti & tf & Di & Df & M & Run & SB & GB & A' & Up & Ui & Uf & _ & _ & HM & W & _).
  pose proof (asked_once l _ k' C A A') as <-.
  destruct (merge_units re_w o (read_text b1) (read_text b3) (read_text b2)) as (M' & tp' & tc & tt & E & Vp & Vc & Vt & HM' & _);
    try (eapply reads_real; eassumption).
  rewrite (units_unique re_w _ _ _ _ Vp Up), (units_unique re_w _ _ _ _ Vc Ui), (units_unique re_w _ _ _ _ Vt Uf), HM in HM'.
  injection HM' as <-. rewrite E in H. injection H as H.
  exists fs', b. split; [exact Run|]. split; [|split; [exact SB|split; [exact GB|]]].
  - destruct (asked l C) as (o' & A2 & _).
    destruct (merge_runs linesep re_w space digit sp emoji normalize DO argv l fs parent from out o' SP O C A2) as [Run' _].
    rewrite (Run' out L NE) in Run.
    destruct (merge_files linesep re_w space fs o' parent out from out) as [f x] eqn:Q. cbn in Run. injection Run as -> _.
    eapply (merge_files_real linesep re_w space fs o' parent out from b1 b3 b2 out); eauto. now apply (not_struck l).
  - destruct (W ND) as (W1 & _). rewrite (W1 N1 N2).
    destruct M as [|[t|x y] [|]]; try discriminate. cbn in H. injection H as <-.
    unfold flat_text. cbn. now rewrite app_nil_r.
Qed.

Lemma runs_in_turn o parent out p commands : forall fs b1 b0 m, real_files fs -> plain_name parent -> plain_name out -> out <> [] -> parent <> out ->
  dget fs parent = Some b1 -> read_text b1 = p -> dget fs out = Some b0 ->
  (forall argv from, In (argv, from) commands -> merges_into digit o parent out from argv /\ plain_name from /\ from <> out /\ dmem fs from = true) ->
  texts_in_turn re_w o p (read_text b0) (map (fun c => text_of fs (snd c)) commands) = Some m ->
  exists fs' b, run_each merge_program fs (map fst commands) = Some fs' /\ real_files fs' /\ same_but out fs fs' /\ dget fs' out = Some b /\ read_text b = m.
Proof.
  induction commands as [|[argv from] commands IH]; intros fs b1 b0 m RF P1 P3 NE Np G1 Q G3 H T.
  - cbn in T. injection T as <-. exists fs, b0. split; [reflexivity|]. split; [exact RF|]. split; [intros n _; reflexivity|]. now split.
  - destruct (H argv from (or_introl eq_refl)) as (MI & P2 & Nf & D). cbn [map texts_in_turn snd] in T.
    assert (F : exists b2, dget fs from = Some b2) by (unfold dmem in D; destruct (dget fs from); [eauto|discriminate]).
    destruct F as (b2 & G2). unfold text_of at 1 in T. rewrite G2 in T.
    destruct (merge_result re_w o p (read_text b0) (read_text b2)) as [[|[[|m1]|] [|]]|] eqn:MR; try discriminate.
    subst p. destruct (one_run o fs parent out from argv b1 b2 b0 m1 RF MI P1 P2 P3 NE G1 G2 G3 MR) as (fs1 & b & Run & RF1 & SB & GB & Rb).
    destruct (IH fs1 b1 b m RF1 P1 P3 NE Np) as (fs' & b' & R & RF' & SB' & GB' & E); auto.
    + now rewrite (SB parent Np).
    + intros argv' from' I. destruct (H argv' from' (or_intror I)) as (A1 & A2 & A3 & A4). do 3 (split; [assumption|]).
      unfold dmem in *. now rewrite (SB from' A3).
    + rewrite Rb, <- T. f_equal. apply map_ext_in. intros [argv' from'] I. destruct (H argv' from' (or_intror I)) as (_ & _ & A3 & _).
      unfold text_of. cbn [snd]. now rewrite (SB from' A3).
    + exists fs', b'. cbn [map run_each fst]. rewrite Run. split; [exact R|]. split; [exact RF'|]. split; [|now split].
      intros n Hn. rewrite (SB' n Hn). now apply SB.
Qed.
Theorem runs_any_order o p bs : real_text p -> bs <> [] ->
  (forall b, In b bs -> exists s, edited re_w o p b s) ->
  (forall e e', edit_of re_w o p bs e -> edit_of re_w o p bs e' -> apart_edits e e') ->
  exists m s, edited re_w o p m s /\ (forall e, In e (edits 0 s) <-> edit_of re_w o p bs e) /\
  forall fs parent out b1 b0 commands, real_files fs -> plain_name parent -> plain_name out -> out <> [] -> parent <> out ->
    dget fs parent = Some b1 -> read_text b1 = p -> dget fs out = Some b0 ->
    (forall argv from, In (argv, from) commands -> merges_into digit o parent out from argv /\ plain_name from /\ from <> out /\ dmem fs from = true) ->
    (forall t, In t (read_text b0 :: map (fun c => text_of fs (snd c)) commands) <-> In t bs) ->
    exists fs' b, run_each merge_program fs (map fst commands) = Some fs' /\ real_files fs' /\ same_but out fs fs' /\ dget fs' out = Some b /\ read_text b = m.
Proof.
  intros R N H A. destruct (texts_any_order_all re_w o p bs R N H A) as (m & s & E & I & T).
  exists m, s. split; [exact E|]. split; [exact I|]. intros fs parent out b1 b0 commands RF P1 P3 NE Np G1 Q G3 Hc Ht.
  apply (runs_in_turn o parent out p commands fs b1 b0 m); auto.
Qed.
(** what gaspra-diff shows of the result *)
Theorem runs_shown o p bs : real_text p -> bs <> [] ->
  (forall b, In b bs -> exists s, edited re_w o p b s) ->
  (forall e e', edit_of re_w o p bs e -> edit_of re_w o p bs e' -> apart_edits e e') ->
  exists s, (forall e, In e (edits 0 s) <-> edit_of re_w o p bs e) /\
  forall fs parent out b1 b0 commands, real_files fs -> plain_name parent -> plain_name out -> out <> [] -> parent <> out ->
    dget fs parent = Some b1 -> read_text b1 = p -> dget fs out = Some b0 ->
    (forall argv from, In (argv, from) commands -> merges_into digit o parent out from argv /\ plain_name from /\ from <> out /\ dmem fs from = true) ->
    (forall t, In t (read_text b0 :: map (fun c => text_of fs (snd c)) commands) <-> In t bs) ->
    forall argv l review, spelled digit diff_command argv l -> operands_of l = [parent; out] -> SpecCommandLine.compatible (flags_of l) ->
    last_output l = Some review -> review <> [] -> without l FStrikeout -> unit_asked l (tokenizer_of o) ->
    exists fs1 fs2 b, run_each merge_program fs (map fst commands) = Some fs1 /\
      gaspra_diff linesep re_w space digit sp emoji normalize argv fs1 = (fs2, Ran [] None) /\
      same_but review fs1 fs2 /\ dget fs2 review = Some b /\
      written_as l (lined space) (basename out) (basename parent) (joined s) (read_text b).
Proof.
  intros R N H A. destruct (runs_any_order o p bs R N H A) as (m & s & (_ & U1 & U2 & D) & I & T).
  exists s. split; [exact I|]. intros fs parent out b1 b0 commands RF P1 P3 NE Np G1 Q G3 Hc Ht argv l review SP O C L NR NS UA.
  destruct (T fs parent out b1 b0 commands RF P1 P3 NE Np G1 Q G3 Hc Ht) as (fs1 & b & Run & RF1 & SB & GB & E).
  assert (G1' : dget fs1 parent = Some b1) by (now rewrite (SB parent Np)).
  destruct (edits_shown linesep re_w space digit sp emoji normalize DO argv l fs1 parent out review b1 b (tokenizer_of o) s)
    as (fs2 & b2 & X1 & X2 & X3 & X4); auto; try (now rewrite ?Q, ?E).
  exists fs1, fs2, b2. auto.
Qed.
End Runs.
