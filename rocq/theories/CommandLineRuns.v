(** Proofs about the programs as a whole: command line, files, console. *)
From Coq Require Import String.
From Verif Require Import Base Changesets Tokenizers SpecTokenizers Lines SpecLines Markup SpecMarkup MarkupProofs MarkupCli MarkupStrike Rich Files SpecFiles FilesProofs
  CommandLine SpecCommandLine CommandLineProofs.
Local Open Scope Z_scope.
Local Open Scope list_scope.

(** * Rejected command lines *)
Section Rejected.
Variable digit : Z -> bool.
Variable c : command.
Hypothesis DO : digit_ok digit.
Lemma take_status k : operands_of k = [] -> forall n z, take_actions n (acts k) = Exit z -> z = 2.
Proof.
  induction k as [|i k IH]; intros O n z H; [discriminate|]. cbn [acts flat_map] in H. fold (acts k) in H.
  destruct i as [s|f|s]; [discriminate| |]; cbn [act app take_actions take_action] in H.
  - destruct (_ && _); [congruence|]. exact (IH O _ z H).
  - exact (IH O _ z H).
Qed.
Lemma spelled_status argv l : spelled digit c argv l -> forall run n z, arguments c run (classify_all digit c argv) n = Exit z -> z = 2.
Proof.
  assert (PL : forall argv run n z, arguments c run (map (fun s => (s, CArgument)) argv) n = Exit z -> z = 2).
  { induction argv0 as [|s argv0 IH]; intros run n z H; cbn [map arguments] in H; [destruct (_ || _); congruence|]. exact (IH _ _ z H). }
  induction 1 as [|s argv l O SP IH|s argv k l SA SP IH|s v argv k l SO O SP IH|argv NE ND|s O]; intros run n z H.
  - cbn [classify_all arguments] in H. destruct (_ || _); congruence.
  - rewrite (classes_operand digit c DO s argv O) in H. cbn [arguments] in H. exact (IH _ _ z H).
  - rewrite (arguments_done digit c s argv k run n SA) in H. destruct (take_actions n (acts k)) as [n1|y] eqn:T; [exact (IH _ _ z H)|].
    injection H as <-. apply (take_status k (says_operands c s k SA) n y T).
  - rewrite (arguments_open digit c DO s v argv k run n SO O) in H. destruct (take_actions n (acts (k ++ [Output v]))) as [n1|y] eqn:T; [exact (IH _ _ z H)|].
    injection H as <-. apply (take_status (k ++ [Output v])) with (n := n); [|exact T].
    unfold operands_of. rewrite flat_map_app. fold (operands_of k). rewrite (opens_operands c s k SO). reflexivity.
  - rewrite classes_dashes in H. cbn [arguments] in H. destruct (_ || _ && _); exact (PL _ _ _ _ H).
  - rewrite (classes_operand digit c DO s _ O), classes_dashes in H. cbn [map arguments orb] in H. destruct (_ || _); congruence.
Qed.
Lemma acts_inj k k' : operands_of k = [] -> operands_of k' = [] -> acts k = acts k' -> k = k'.
Proof.
  revert k'; induction k as [|i k IH]; intros k' O O' E.
  - destruct k' as [|[s|f|s] k']; [reflexivity|discriminate..].
  - destruct i as [s|f|s]; [discriminate| |]; (destruct k' as [|[s'|f'|s'] k']; [discriminate|discriminate|..]); cbn in E; try discriminate;
      injection E as -> E; f_equal; apply IH; assumption.
Qed.
Lemma not_both s k : operand_like digit c s -> understood digit c s = k -> k = None.
Proof. intros O <-. apply (classify_operand digit c DO) in O. unfold understood. rewrite O. reflexivity. Qed.
Lemma not_dashes_operand : ~ operand_like digit c (str "--").
Proof. intros O. apply (classify_operand digit c DO) in O. rewrite dashes_ambiguous in O. discriminate. Qed.
Lemma not_dashes_understood e : understood digit c (str "--") <> Some e.
Proof. unfold understood. rewrite dashes_ambiguous. discriminate. Qed.
Lemma spelled_not_end l : ~ spelled digit c [str "--"] l.
Proof.
  intros H. remember [str "--"] as argv eqn:E. destruct H as [|s argv l O SP|s argv k l SA SP|s v argv k l SO O SP|argv NE ND|s O].
  - discriminate.
  - injection E as -> _. exact (not_dashes_operand O).
  - injection E as -> _. exact (not_dashes_understood _ (understood_says digit c _ k SA)).
  - discriminate.
  - injection E as ->. contradiction.
  - discriminate.
Qed.
Ltac clash := match goal with
  | H : operand_like _ _ (str "--") |- _ => exfalso; exact (not_dashes_operand H)
  | H : says _ (str "--") ?k |- _ => exfalso; exact (not_dashes_understood _ (understood_says digit c _ k H))
  | H : opens _ (str "--") ?k |- _ => exfalso; exact (not_dashes_understood _ (understood_opens digit c _ k H))
  | H : spelled _ _ [str "--"] _ |- _ => exfalso; exact (spelled_not_end _ H)
  | O : operand_like _ _ ?s, H : says _ ?s ?k |- _ => pose proof (not_both s _ O (understood_says digit c s k H)); discriminate
  | O : operand_like _ _ ?s, H : opens _ ?s ?k |- _ => pose proof (not_both s _ O (understood_opens digit c s k H)); discriminate
  | H : says _ ?s ?k, H' : opens _ ?s ?k' |- _ => pose proof (understood_says digit c s k H) as U; rewrite (understood_opens digit c s k' H') in U; discriminate
  end.
(** the first argument decides which rule it is *)
Lemma spelled_cases argv l : spelled digit c argv l ->
  match argv with
  | [] => l = []
  | s :: rest =>
    (s = str "--" /\ l = map Operand rest) \/
    (operand_like digit c s /\ rest = [str "--"] /\ l = [Operand s]) \/
    (operand_like digit c s /\ rest <> [str "--"] /\ exists m, l = Operand s :: m /\ spelled digit c rest m) \/
    (exists k m, says c s k /\ l = k ++ m /\ spelled digit c rest m) \/
    (exists v r k m, opens c s k /\ operand_like digit c v /\ rest = v :: r /\ l = k ++ Output v :: m /\ spelled digit c r m)
  end.
Proof.
  intros [|s rest m O SP|s rest k m SA SP|s v rest k m SO O SP|rest NE ND|s O]; auto.
  - right. right. left. split; [exact O|]. split; [intros ->; exact (spelled_not_end _ SP)|]. exists m. auto.
  - right. right. right. left. exists k, m. auto.
  - right. right. right. right. exists v, rest, k, m. auto.
Qed.
Lemma spelled_unique argv l : spelled digit c argv l -> forall l', spelled digit c argv l' -> l = l'.
Proof.
  induction 1 as [|s argv l O SP IH|s argv k l SA SP IH|s v argv k l SO O SP IH|argv NE ND|s O]; intros l' SP'; apply spelled_cases in SP'.
  - symmetry. exact SP'.
  - destruct SP' as [(-> & _)|[(_ & -> & _)|[(_ & _ & m & -> & SP2)|[(k' & m & SA' & _)|(v' & r & k' & m & SO' & _)]]]]; try clash.
    f_equal. apply IH. exact SP2.
  - destruct SP' as [(-> & _)|[(O' & _)|[(O' & _)|[(k' & m & SA' & -> & SP2)|(v' & r & k' & m & SO' & _)]]]]; try clash.
    pose proof (understood_says digit c s k SA) as U.
    rewrite (understood_says digit c s k' SA') in U. injection U as U. apply acts_inj in U; [|eapply says_operands; eassumption..].
    subst. f_equal. apply IH. exact SP2.
  - destruct SP' as [(-> & _)|[(O' & _)|[(O' & _)|[(k' & m & SA' & _)|(v' & r & k' & m & SO' & O' & E & -> & SP2)]]]]; try clash.
    injection E as <- <-. pose proof (understood_opens digit c s k SO) as U.
    rewrite (understood_opens digit c s k' SO') in U. injection U as U. apply acts_inj in U; [|eapply opens_operands; eassumption..].
    subst. do 2 f_equal. apply IH. exact SP2.
  - destruct SP' as [(_ & ->)|[(O' & _)|[(O' & _)|[(k' & m & SA' & _)|(v' & r & k' & m & SO' & _)]]]]; try clash. reflexivity.
  - destruct SP' as [(-> & _)|[(_ & _ & ->)|[(_ & N & _)|[(k' & m & SA' & _)|(v' & r & k' & m & SO' & _)]]]]; try clash; [reflexivity|contradiction].
Qed.
Lemma spelled_rejected argv l : spelled digit c argv l ->
  length (operands_of l) <> c_operands c \/ ~ compatible (flags_of l) -> parse_args digit c argv = Exit 2.
Proof.
  intros SP B. destruct (parse_args digit c argv) as [n|z] eqn:P.
  - exfalso. apply (parse_exactly digit c DO argv n (spelled_one digit c DO argv l SP)) in P as (l' & SP' & L' & C' & _). rewrite <- (spelled_unique argv l SP l' SP') in *. tauto.
  - unfold parse_args in P. rewrite (spelled_clear digit c DO argv l SP) in P.
    rewrite (spelled_status argv l SP _ _ _ P). reflexivity.
Qed.
Lemma parse_status argv z : parse_args digit c argv = Exit z -> z = 0 \/ z = 2.
Proof.
  unfold parse_args. destruct (existsb _ _); [intros H; injection H; auto|].
  assert (T : forall l n y, take_actions n l = Exit y -> y = 0 \/ y = 2).
  { induction l as [|[[| |f] x] l IH]; intros n y H; cbn [take_actions take_action] in H; [discriminate|injection H; auto|exact (IH _ y H)|].
    destruct (_ && _); [injection H; auto|exact (IH _ y H)]. }
  assert (G : forall m l, (length l <= m)%nat -> forall run n y, arguments c run l n = Exit y -> y = 0 \/ y = 2).
  { induction m as [|m IH]; intros l Lm run n y H.
    - destruct l; [|cbn in Lm; lia]. cbn [arguments] in H. destruct (_ || _); [injection H; auto|discriminate].
    - destruct l as [|[s cl] l]; [cbn [arguments] in H; destruct (_ || _); [injection H; auto|discriminate]|].
      cbn in Lm. cbn [arguments] in H. destruct cl as [|a b x| | |].
      + apply IH in H; [exact H|lia].
      + destruct (consume_optional c a b x) as [[l' [| |]]|]; [| | |injection H; auto].
        * destruct (take_actions n l') as [n1|] eqn:E; [apply IH in H; [exact H|lia]|injection H as <-; exact (T _ _ _ E)].
        * destruct (take_actions n l') as [n1|] eqn:E; [apply IH in H; [exact H|lia]|injection H as <-; exact (T _ _ _ E)].
        * destruct l as [|[v [| | | |]] l]; try (injection H; auto).
          destruct (take_actions n (l' ++ [(AOutput, v)])) as [n1|] eqn:E; [apply IH in H; [exact H|cbn in Lm; lia]|injection H as <-; exact (T _ _ _ E)].
      + apply IH in H; [exact H|lia].
      + injection H; auto.
      + destruct (_ || _); apply IH in H; auto; lia. }
  apply (G _ _ (le_n _)).
Qed.
(** -h after a good beginning *)
Lemma parse_help pre post l k h : spelled digit c pre l -> ~ In (str "--") pre -> compatible (flags_of l) -> spelled digit c post k ->
  h = str "-h" \/ (exists p, h = 45 :: 45 :: p /\ abbreviates c p (str "help")) ->
  parse_args digit c (pre ++ h :: post) = Exit 0.
Proof.
  intros SP ND C SQ HH.
  assert (H : exists b, classify digit c h = COption AHelp b None).
  { destruct HH as [->|(p & -> & N & P & U)].
    - exists true. change (str "-h") with [45; 104]. rewrite classify_short by discriminate. reflexivity.
    - exists false. rewrite classify_long. unfold cut.
      assert (NE : ~ In 61 p).
      { intros J. destruct P as [r P]. apply (names_plain c (str "help") AHelp); [apply long_action; auto|]. rewrite P. apply in_or_app. auto. }
      apply split_none in NE. rewrite NE. assert (matches c p = [(str "help", AHelp)]) as ->; [|reflexivity].
      apply matches_one. split; [apply long_action; auto|]. auto. }
  destruct H as [b H]. unfold parse_args.
  assert (CA : classify_all digit c (pre ++ h :: post) = classify_all digit c pre ++ (h, COption AHelp b None) :: classify_all digit c post).
  { clear - H ND. induction pre as [|s pre IH].
    - cbn [app]. rewrite classes_cons; rewrite H; [reflexivity|discriminate].
    - cbn [app classify_all]. destruct (teq_spec s (str "--")) as [E|N]; [exfalso; apply ND; left; exact E|].
      rewrite IH; [reflexivity|]. intros J. apply ND. right. exact J. }
  rewrite CA, existsb_app, (spelled_clear digit c DO pre l SP). cbn [existsb snd is_ambiguous orb]. rewrite (spelled_clear digit c DO post k SQ).
  assert (G : forall run n, compatible (n_flags n ++ flags_of l) -> arguments c run (classify_all digit c pre ++ (h, COption AHelp b None) :: classify_all digit c post) n = Exit 0).
  2: { apply G. exact C. }
  clear - SP DO ND.
  assert (NT : forall s l, ~ In (str "--") (s :: l) -> ~ In (str "--") l) by (intros s0 l0 N J; apply N; right; exact J).
  induction SP as [|s argv l O SP IH|s argv k' l SA SP IH|s v argv k' l SO O SP IH|argv NE ND'|s O]; intros run n C.
  5-6: exfalso; apply ND; cbn; auto.
  - reflexivity.
  - rewrite (classes_operand digit c DO s argv O). cbn [app arguments]. apply IH; [exact (NT _ _ ND)|].
    unfold add_operand. destruct (_ <? _)%nat; exact C.
  - apply understood_says with (digit := digit) in SA as U. unfold understood in U.
    rewrite classes_cons by (intros E; rewrite E in U; discriminate). cbn [app arguments].
    destruct (classify digit c s); try discriminate. rewrite U.
    unfold flags_of in C. rewrite flat_map_app in C. fold (flags_of k') in C. fold (flags_of l) in C. rewrite app_assoc in C.
    destruct (take_all k' (says_operands c s k' SA) n (compatible_app_l _ _ (compatible_app_l _ _ C))) as [T _].
    rewrite (T (compatible_app_l _ _ C)). apply IH; [eauto|exact C].
  - apply understood_opens with (digit := digit) in SO as U. unfold understood in U.
    rewrite classes_cons by (intros E; rewrite E in U; discriminate). rewrite (classes_operand digit c DO v argv O). cbn [app arguments].
    destruct (classify digit c s); try discriminate. rewrite U.
    assert (Q : acts k' ++ [(AOutput, v)] = acts (k' ++ [Output v])) by (rewrite acts_app; reflexivity). rewrite Q.
    assert (Q2 : k' ++ Output v :: l = (k' ++ [Output v]) ++ l) by (rewrite <- app_assoc; reflexivity). rewrite Q2 in C.
    unfold flags_of in C. rewrite flat_map_app in C. fold (flags_of (k' ++ [Output v])) in C. fold (flags_of l) in C. rewrite app_assoc in C.
    assert (O' : operands_of (k' ++ [Output v]) = []).
    { unfold operands_of. rewrite flat_map_app. fold (operands_of k'). rewrite (opens_operands c s k' SO). reflexivity. }
    destruct (take_all _ O' n (compatible_app_l _ _ (compatible_app_l _ _ C))) as [T _].
    rewrite (T (compatible_app_l _ _ C)). apply IH; [eauto|exact C].
Qed.
End Rejected.

(** * The programs *)
Lemma flag_given_in n f : flag_given n f = true <-> In f (n_flags n).
Proof.
  unfold flag_given. rewrite existsb_exists. split.
  - intros (g & J & E). apply flag_eqb_eq in E. subst. exact J.
  - intros J. exists f. split; [exact J|]. apply flag_eqb_eq. reflexivity.
Qed.
Lemma flag_given_not n f : ~ In f (n_flags n) -> flag_given n f = false.
Proof. rewrite <- flag_given_in. destruct (flag_given n f); [intros H; exfalso; apply H; reflexivity|reflexivity]. Qed.
Lemma same_options n n' : (forall f, In f (n_flags n) <-> In f (n_flags n')) -> n_output n = n_output n' -> options_of n = options_of n'.
Proof.
  intros F O. assert (G : forall f, flag_given n f = flag_given n' f).
  { intros f. specialize (F f). rewrite <- !flag_given_in in F. destruct (flag_given n f), (flag_given n' f); intuition congruence. }
  unfold options_of. rewrite O, !G. reflexivity.
Qed.
Section Programs.
Variable linesep : list Z.
Variables re_w space digit : Z -> bool.
Variable sp : Z -> bool.
Variable emoji : list Z -> option (list Z).
Variable normalize : list Z -> list Z.
Variable directory : list Z.
Hypothesis DO : digit_ok digit.
Notation merge_program := (gaspra_merge linesep re_w space digit sp emoji normalize).
Notation diff_program := (gaspra_diff linesep re_w space digit sp emoji normalize).
Notation torture_program := (gaspra_torture linesep re_w space digit sp emoji normalize directory).
Notation run := (run_merge linesep re_w space sp emoji normalize).

Lemma in_flags f l : In f (flags_of l) <-> In (Flag f) l.
Proof.
  unfold flags_of. rewrite in_flat_map. split.
  - intros ([s|g|s] & J & K); [destruct K|destruct K as [<-|[]]; exact J|destruct K].
  - intros J. exists (Flag f). split; [exact J|left; reflexivity].
Qed.
Lemma parse_both c argv argv' l l' : spelled digit c argv l -> spelled digit c argv' l' ->
  operands_of l = operands_of l' -> (compatible (flags_of l) <-> compatible (flags_of l')) ->
  parse_args digit c argv = Exit 2 /\ parse_args digit c argv' = Exit 2 \/
  parse_args digit c argv = Parsed (mkNs (operands_of l) (flags_of l) (last_output l) false) /\
  parse_args digit c argv' = Parsed (mkNs (operands_of l') (flags_of l') (last_output l') false).
Proof.
  intros SP SP' O CC.
  assert (D : compatible (flags_of l) \/ ~ compatible (flags_of l)).
  { destruct (existsb (fun f => exclusive f && existsb (fun g => exclusive g && negb (flag_eqb f g)) (flags_of l)) (flags_of l)) eqn:E.
    - right. intros C. apply existsb_exists in E as (f & J & E). apply clash_iff in E as (g & Jg & X & Y & N). apply N. apply C; assumption.
    - left. intros f g Jf Jg X Y. destruct (flag_eqb f g) eqn:Q; [apply flag_eqb_eq; exact Q|]. exfalso.
      assert (W : existsb (fun f => exclusive f && existsb (fun g => exclusive g && negb (flag_eqb f g)) (flags_of l)) (flags_of l) = true); [|congruence].
      apply existsb_exists. exists f. split; [exact Jf|]. apply clash_iff. exists g. repeat split; auto. intros W. apply flag_eqb_eq in W. congruence. }
  destruct D as [C|NC]; [destruct (Nat.eq_dec (length (operands_of l)) (c_operands c)) as [E|NE]|].
  - right. split; apply parse_exactly; try exact DO; [eapply spelled_one; eassumption|exists l; auto|eapply spelled_one; eassumption|]. exists l'. repeat split; auto; [congruence|apply CC; exact C].
  - left. split; [apply spelled_rejected with (l := l); auto|apply spelled_rejected with (l := l'); auto]. rewrite <- O. auto.
  - left. split; [apply spelled_rejected with (l := l); auto|apply spelled_rejected with (l := l'); auto]. right. rewrite <- CC. exact NC.
Qed.
Lemma parse_meaning c argv argv' l l' : spelled digit c argv l -> spelled digit c argv' l' -> same_meaning l l' ->
  parse_args digit c argv = Exit 2 /\ parse_args digit c argv' = Exit 2 \/
  exists n n', parse_args digit c argv = Parsed n /\ parse_args digit c argv' = Parsed n' /\ n_operands n = n_operands n' /\
    n_output n = n_output n' /\ options_of n = options_of n'.
Proof.
  intros SP SP' (O & L & F).
  assert (F' : forall f, In f (flags_of l) <-> In f (flags_of l')) by (intros f; rewrite !in_flags; apply F).
  assert (CC : compatible (flags_of l) <-> compatible (flags_of l')).
  { unfold compatible. split; intros H f g Jf Jg; apply H; apply F'; assumption. }
  destruct (parse_both c argv argv' l l' SP SP' O CC) as [B|[P P']]; [left; exact B|right].
  eexists _, _. split; [exact P|]. split; [exact P'|]. cbn [n_operands n_output]. split; [exact O|]. split; [exact L|].
  apply same_options; [exact F'|exact L].
Qed.
Lemma run_options n n' fs p c t : n_output n = n_output n' -> options_of n = options_of n' -> run fs n p c t = run fs n' p c t.
Proof. intros O Q. unfold run_merge. rewrite O, Q. reflexivity. Qed.
Theorem merge_meaning argv argv' l l' fs : spelled digit merge_command argv l -> spelled digit merge_command argv' l' -> same_meaning l l' ->
  merge_program argv fs = merge_program argv' fs.
Proof.
  intros A B S. unfold gaspra_merge. destruct (parse_meaning _ _ _ _ _ A B S) as [(-> & ->)|(n & n' & -> & -> & O & U & Q)]; [reflexivity|].
  rewrite O. destruct (n_operands n') as [|p [|f [|i [|]]]]; try reflexivity. apply run_options; assumption.
Qed.
Theorem diff_meaning argv argv' l l' fs : spelled digit diff_command argv l -> spelled digit diff_command argv' l' -> same_meaning l l' ->
  diff_program argv fs = diff_program argv' fs.
Proof.
  intros A B S. unfold gaspra_diff. destruct (parse_meaning _ _ _ _ _ A B S) as [(-> & ->)|(n & n' & -> & -> & O & U & Q)]; [reflexivity|].
  rewrite O, U, Q. reflexivity.
Qed.
Theorem torture_meaning argv argv' l l' fs : spelled digit torture_command argv l -> spelled digit torture_command argv' l' -> same_meaning l l' ->
  torture_program argv fs = torture_program argv' fs.
Proof.
  intros A B S. unfold gaspra_torture. destruct (parse_meaning _ _ _ _ _ A B S) as [(-> & ->)|(n & n' & -> & -> & O & U & Q)]; [reflexivity|].
  rewrite O. destruct (n_operands n') as [|p [|]]; try reflexivity. destruct (get_filenames directory p) as [[? ?] ?]. apply run_options; assumption.
Qed.

(** * What is touched *)
Lemma write_same fs name out : same_but name fs (fst (write_file linesep fs name out)).
Proof. unfold write_file. destruct (write_all linesep (fst out)) as [b x]. cbn [fst]. intros n N. apply dget_dset_other. congruence. Qed.
Lemma run_touches n fs p c t : 
  fst (run fs n p c t) = fs \/ exists out, n_output n = Some out /\ out <> [] /\ same_but out fs (fst (run fs n p c t)).
Proof.
  unfold run_merge. destruct (n_output n) as [[|x out]|].
  - left. reflexivity.
  - right. exists (x :: out). split; [reflexivity|]. split; [discriminate|]. unfold merge_files. destruct (get_text fs [p; c; t]) as [[|a [|b [|d [|]]]]|]; try (intros ? ?; reflexivity).
    match goal with |- context [write_file linesep fs (x :: out) ?o] => pose proof (write_same fs (x :: out) o) as W; destruct (write_file linesep fs (x :: out) o) end. exact W.
  - left. destruct (get_text fs [p; c; t]) as [[|a [|b [|d [|]]]]|]; reflexivity.
Qed.
Lemma parsed_output c argv n out : one_dashes argv -> parse_args digit c argv = Parsed n -> n_output n = Some out -> exists l, spelled digit c argv l /\ last_output l = Some out.
Proof. intros OD P O. apply (parse_exactly digit c DO argv n OD) in P as (l & SP & _ & _ & ->). exists l. auto. Qed.
Theorem merge_touches argv fs fs' o : one_dashes argv -> merge_program argv fs = (fs', o) ->
  touches_only digit argv merge_command fs fs' /\ (forall z, o = Exited z -> fs' = fs /\ (z = 0 \/ z = 2)).
Proof.
  intros OD. unfold gaspra_merge. destruct (parse_args digit merge_command argv) as [n|z] eqn:P.
  2: { intros H. injection H as <- <-. split; [left; reflexivity|]. intros y Q. injection Q as <-. split; [reflexivity|exact (parse_status digit _ _ _ P)]. }
  intros H. assert (E : exists x y, o = Ran x y).
  { destruct (n_operands n) as [|p [|f [|i [|]]]]; try (injection H as _ <-; eauto). unfold run_merge in H.
    destruct (n_output n) as [[|a out]|]; [injection H as _ <-; eauto| |].
    - destruct (merge_files _ _ _ _ _ _ _ _ _) as [? ?]. injection H as _ <-. eauto.
    - destruct (get_text fs [p; i; f]) as [[|a [|b [|d [|]]]]|]; try (injection H as _ <-; eauto).
      destruct (on_console _ _ _ _) as [? ?]. eauto. }
  destruct E as (x & y & ->). split; [|discriminate].
  destruct (n_operands n) as [|p [|f [|i [|]]]]; try (injection H as <- _ _; left; reflexivity).
  destruct (run_touches n fs p i f) as [T|(out & O & NE & T)]; rewrite H in T; [left; exact T|]. right.
  destruct (parsed_output _ _ _ _ OD P O) as (l & SP & L). exists l, out. auto.
Qed.
Theorem torture_touches argv fs fs' o : one_dashes argv -> torture_program argv fs = (fs', o) ->
  touches_only digit argv torture_command fs fs' /\ (forall z, o = Exited z -> fs' = fs /\ (z = 0 \/ z = 2)).
Proof.
  intros OD. unfold gaspra_torture. destruct (parse_args digit torture_command argv) as [n|z] eqn:P.
  2: { intros H. injection H as <- <-. split; [left; reflexivity|]. intros y Q. injection Q as <-. split; [reflexivity|exact (parse_status digit _ _ _ P)]. }
  intros H. destruct (n_operands n) as [|tc [|]]; try (injection H as <- <-; split; [left; reflexivity|discriminate]).
  destruct (get_filenames directory tc) as [[p i] f].
  assert (E : exists x y, o = Ran x y).
  { unfold run_merge in H.
    destruct (n_output n) as [[|a out]|]; [injection H as _ <-; eauto| |].
    - destruct (merge_files _ _ _ _ _ _ _ _ _) as [? ?]. injection H as _ <-. eauto.
    - destruct (get_text fs [p; i; f]) as [[|a [|b [|d [|]]]]|]; try (injection H as _ <-; eauto).
      destruct (on_console _ _ _ _) as [? ?]. eauto. }
  destruct E as (x & y & ->). split; [|discriminate].
  destruct (run_touches n fs p i f) as [T|(out & O & NE & T)]; rewrite H in T; [left; exact T|]. right.
  destruct (parsed_output _ _ _ _ OD P O) as (l & SP & L). exists l, out. auto.
Qed.
Theorem diff_touches argv fs fs' o : one_dashes argv -> diff_program argv fs = (fs', o) ->
  touches_only digit argv diff_command fs fs' /\ (forall z, o = Exited z -> fs' = fs /\ (z = 0 \/ z = 2)).
Proof.
  intros OD. unfold gaspra_diff. destruct (parse_args digit diff_command argv) as [n|z] eqn:P.
  2: { intros H. injection H as <- <-. split; [left; reflexivity|]. intros y Q. injection Q as <-. split; [reflexivity|exact (parse_status digit _ _ _ P)]. }
  destruct (n_operands n) as [|a [|b [|]]]; try (intros H; injection H as <- <-; split; [left; reflexivity|discriminate]).
  destruct (n_output n) as [[|x out]|] eqn:O.
  - intros H; injection H as <- <-; split; [left; reflexivity|discriminate].
  - intros H. assert (T : same_but (x :: out) fs fs').
    { unfold diff_files in H. destruct (get_text fs [a; b]) as [[|ta [|tb [|]]]|]; try (injection H as <- _; intros ? ?; reflexivity).
      match type of H with context [write_file linesep fs (x :: out) ?o] => pose proof (write_same fs (x :: out) o) as W; destruct (write_file linesep fs (x :: out) o) end.
      injection H as <- _. exact W. }
    split.
    + right. destruct (parsed_output _ _ _ _ OD P O) as (l & SP & L). exists l, (x :: out). repeat split; auto. discriminate.
    + destruct (diff_files _ _ _ _ _ _ _ _). injection H as _ <-. discriminate.
  - destruct (get_text fs [a; b]) as [[|ta [|tb [|]]]|]; try (intros H; injection H as <- <-; split; [left; reflexivity|discriminate]).
    intros H. destruct (on_console _ _ _ _) as [? ?]. injection H as <- <-; split; [left; reflexivity|discriminate].
Qed.

(** * What the programs do *)
Lemma spelled_parse c argv l : spelled digit c argv l -> length (operands_of l) = c_operands c -> compatible (flags_of l) ->
  parse_args digit c argv = Parsed (mkNs (operands_of l) (flags_of l) (last_output l) false).
Proof. intros SP L C. apply parse_exactly; [exact DO|exact (spelled_one digit c DO argv l SP)|]. exists l. auto. Qed.
Lemma without_given l f o : without l f -> flag_given (mkNs (operands_of l) (flags_of l) o false) f = false.
Proof. intros W. apply flag_given_not. cbn [n_flags]. rewrite in_flags. exact W. Qed.
Lemma merge_writes argv l fs parent from into out : spelled digit merge_command argv l ->
  operands_of l = [parent; from; into] -> compatible (flags_of l) -> last_output l = Some out -> out <> [] ->
  merge_program argv fs = (let '(fs', x) := merge_files linesep re_w space fs (options_of (mkNs (operands_of l) (flags_of l) (last_output l) false)) parent into from out in (fs', Ran [] x)).
Proof.
  intros SP O C L NE. unfold gaspra_merge. rewrite (spelled_parse _ _ _ SP) by (try exact C; rewrite O; reflexivity).
  cbn [n_operands]. rewrite O. unfold run_merge. cbn [n_output]. rewrite L. destruct out; [contradiction|]. reflexivity.
Qed.
(** --strikeout does not matter for a merge shown without diffs *)
Definition unstruck (o : options) : options :=
  mkOptions (o_output o) (o_words o) (o_lines o) (o_show_lines o) (o_git o) false (o_diff o).
Lemma merge_cli_unstruck o p c t pn cn tn : o_diff o = false ->
  snd (merge_cli re_w space o p c t pn cn tn initial_styles) = snd (merge_cli re_w space (unstruck o) p c t pn cn tn initial_styles).
Proof.
  intros D. unfold merge_cli, unstruck. cbn [o_diff]. rewrite D.
  assert (T : tokenizer_of (mkOptions (o_output o) (o_words o) (o_lines o) (o_show_lines o) (o_git o) false false) = tokenizer_of o) by reflexivity.
  rewrite T. destruct (encode re_w (tokenizer_of o) new_tokenizer (CStr p)) as [st1 ep].
  destruct (encode re_w (tokenizer_of o) st1 (CStr c)) as [st2 ec]. destruct (encode re_w (tokenizer_of o) st2 (CStr t)) as [st3 et].
  destruct ep as [tp|]; [|reflexivity]. destruct ec as [tc|]; [|reflexivity]. destruct et as [tt|]; [|reflexivity].
  unfold get_markup_style. cbn [o_strikeout o_git o_output]. rewrite !andb_false_r.
  destruct (let* m := Merge.merge_token_sequence Merge.KTuple tp tc tt in _) as [d|]; [|reflexivity]. cbn [snd].
  unfold display, shown, escape_of. cbn [o_show_lines o_git o_output]. reflexivity.
Qed.
Lemma run_unstruck n n' fs p c t : n_output n = n_output n' -> unstruck (options_of n) = unstruck (options_of n') ->
  o_diff (options_of n) = false -> run fs n p c t = run fs n' p c t.
Proof.
  intros O Q D. assert (D' : o_diff (options_of n') = false) by (rewrite <- D; change (o_diff (unstruck (options_of n')) = o_diff (unstruck (options_of n))); congruence).
  unfold run_merge. rewrite <- O. destruct (n_output n) as [[|x out]|]; [reflexivity| |].
  - unfold merge_files. destruct (get_text fs [p; c; t]) as [[|a [|b [|d [|]]]]|]; try reflexivity.
    rewrite (merge_cli_unstruck (with_output (options_of n))) by exact D. rewrite (merge_cli_unstruck (with_output (options_of n'))) by exact D'.
    assert (W : forall o, unstruck (with_output o) = with_output (unstruck o)) by reflexivity. rewrite !W, Q. reflexivity.
  - destruct (get_text fs [p; c; t]) as [[|a [|b [|d [|]]]]|]; try reflexivity.
    rewrite (merge_cli_unstruck (options_of n)) by exact D. rewrite (merge_cli_unstruck (options_of n')) by exact D'. rewrite Q. reflexivity.
Qed.
Theorem strikeout_idle argv argv' l l' fs : spelled digit merge_command argv l -> spelled digit merge_command argv' l' ->
  operands_of l = operands_of l' -> last_output l = last_output l' -> (forall f, f <> FStrikeout -> (In (Flag f) l <-> In (Flag f) l')) ->
  without l FDiff -> merge_program argv fs = merge_program argv' fs.
Proof.
  intros SP SP' O L F W.
  assert (CC : compatible (flags_of l) <-> compatible (flags_of l')).
  { unfold compatible; split; intros H f g Jf Jg X Y;
      (assert (Nf : f <> FStrikeout) by (intros ->; cbn in X; intuition discriminate)); (assert (Ng : g <> FStrikeout) by (intros ->; cbn in Y; intuition discriminate));
      apply H; auto; apply in_flags; apply F; auto; apply in_flags; assumption. }
  unfold gaspra_merge. destruct (parse_both merge_command argv argv' l l' SP SP' O CC) as [(-> & ->)|(-> & ->)]; [reflexivity|].
  cbn [n_operands]. rewrite O. destruct (operands_of l') as [|p [|f [|i [|]]]]; try reflexivity.
  assert (G : forall x y f, f <> FStrikeout -> flag_given (mkNs x (flags_of l) y false) f = flag_given (mkNs x (flags_of l') y false) f).
  { intros x y g N. pose proof (flag_given_in (mkNs x (flags_of l) y false) g) as A. pose proof (flag_given_in (mkNs x (flags_of l') y false) g) as B.
    cbn [n_flags] in A, B. rewrite in_flags in A, B. specialize (F g N).
    destruct (flag_given (mkNs x (flags_of l) y false) g), (flag_given (mkNs x (flags_of l') y false) g); intuition congruence. }
  apply run_unstruck.
  - exact L.
  - unfold options_of, unstruck. cbn [n_output o_output o_words o_lines o_show_lines o_git o_diff]. rewrite L, !G by discriminate. reflexivity.
  - apply flag_given_not. cbn [n_flags]. rewrite in_flags. exact W.
Qed.

Lemma files_unstruck fs o p c t out : o_diff o = false ->
  merge_files linesep re_w space fs o p c t out = merge_files linesep re_w space fs (unstruck o) p c t out.
Proof.
  intros D. unfold merge_files. destruct (get_text fs [p; c; t]) as [[|a [|b [|d [|]]]]|]; try reflexivity.
  rewrite (merge_cli_unstruck (with_output o)) by exact D. reflexivity.
Qed.
(** an unchanged branch, and a merge without conflicts *)
Theorem merge_roles argv l fs parent from into out b1 b2 b3 : a_linesep linesep -> real_files fs ->
  spelled digit merge_command argv l -> operands_of l = [parent; from; into] -> compatible (flags_of l) -> last_output l = Some out -> out <> [] ->
  without l FDiff -> without l FShowLines -> without l FGit ->
  plain_name parent -> plain_name from -> plain_name into ->
  dget fs parent = Some b1 -> dget fs from = Some b2 -> dget fs into = Some b3 ->
  exists fs' b, merge_program argv fs = (fs', Ran [] None) /\ same_but out fs fs' /\ dget fs' out = Some b /\
    (read_text b2 = read_text b1 -> read_text b = read_text b3) /\
    (read_text b3 = read_text b1 \/ read_text b3 = read_text b2 -> read_text b = read_text b2).
Proof.
  intros SEP RF SP O C L NE W2 W3 W4 P1 P2 P3 G1 G2 G3.
  set (o := options_of (mkNs (operands_of l) (flags_of l) (last_output l) false)).
  destruct (merge_files_one linesep SEP re_w space fs (unstruck o) parent into from b1 b3 b2 out) as (fs' & b & M & S & D & A & B); auto;
    try (apply without_given; assumption).
  exists fs', b. rewrite (merge_writes argv l fs parent from into out SP O C L NE). fold o. rewrite files_unstruck by (apply without_given; assumption). rewrite M.
  repeat split; auto. intros [Q|Q]; [exact (A Q)|]. rewrite B; [exact Q|right; symmetry; exact Q].
Qed.
Theorem merge_git_roles argv l fs parent from into out b1 b2 b3 : a_linesep linesep -> real_files fs ->
  spelled digit merge_command argv l -> operands_of l = [parent; from; into] -> compatible (flags_of l) -> last_output l = Some out -> out <> [] ->
  without l FDiff -> In (Flag FGit) l ->
  plain_name parent -> plain_name from -> plain_name into ->
  dget fs parent = Some b1 -> dget fs from = Some b2 -> dget fs into = Some b3 ->
  exists fs' b d m tail, merge_program argv fs = (fs', Ran [] None) /\ same_but out fs fs' /\ dget fs' out = Some b /\
    read_text b = git_text (basename into) (basename from) d /\
    merge_result re_w (options_of (mkNs (operands_of l) (flags_of l) (last_output l) false)) (read_text b1) (read_text b3) (read_text b2) = Ok m /\
    (tail = [] \/ tail = [10]) /\ into_text d = text_after m ++ tail /\ from_text d = text_before m ++ tail.
Proof.
  intros SEP RF SP O C L NE W2 G P1 P2 P3 G1 G2 G3.
  set (o := options_of (mkNs (operands_of l) (flags_of l) (last_output l) false)).
  assert (OG : o_git o = true) by (cbn [o options_of o_git]; apply flag_given_in; cbn [n_flags]; apply in_flags; exact G).
  assert (OD : o_diff o = false) by (apply without_given; exact W2).
  assert (OW : with_output o = o).
  { unfold with_output, o, options_of. cbn. rewrite L. destruct out; [contradiction|]. reflexivity. }
  destruct (merge_files_written linesep SEP re_w space fs (unstruck o) parent into from b1 b3 b2 out) as (fs' & b & chunks & M & Q & S & D & R); auto;
    try (apply without_given; assumption).
  change (with_output (unstruck o)) with (unstruck (with_output o)) in Q. rewrite OW, <- merge_cli_unstruck in Q by exact OD. assert (OO : o_output o = true) by (rewrite <- OW; reflexivity).
  assert (RT : forall n x, dget fs n = Some x -> real_text (read_text x)).
  { intros n x Gx. destruct (every_file_reads fs [n] RF) as (ts & T & _ & F); [repeat constructor; unfold dmem; rewrite Gx; reflexivity|].
    cbn [get_text] in T. rewrite Gx in T. injection T as <-. inversion F as [|? ? [F1 _] _]; subst. apply scalar_real. exact F1. }
  destruct (merge_git re_w space o (read_text b1) (read_text b3) (read_text b2) (basename parent) (basename into) (basename from) OG OO OD
    (RT _ _ G1) (RT _ _ G3) (RT _ _ G2)) as (chunks' & d & m & tail & E & T & _ & _ & MR & TL & IT & FT & _).
  rewrite E in Q. injection Q as ->. exists fs', b, d, m, tail. rewrite (merge_writes argv l fs parent from into out SP O C L NE). fold o. rewrite files_unstruck by (apply without_given; assumption). rewrite M.
  repeat split; auto. rewrite R. exact T.
Qed.

(** with both -s and -d the program fails where something is to be struck out *)
Lemma print_fails chunks e : exists cells x, on_console sp emoji normalize (chunks, Some e) = (cells, Some x).
Proof.
  unfold on_console. cbn [fst snd]. induction chunks as [|s chunks (c & x & IH)]; cbn [print_all]; [eauto|].
  destruct (render sp emoji normalize s) as [r|y]; [|eauto]. rewrite IH. eauto.
Qed.
Lemma write_fails fs name chunks e : exists fs' x, write_file linesep fs name (chunks, Some e) = (fs', Some x).
Proof. unfold write_file. cbn [fst snd]. destruct (write_all linesep chunks) as [b [y|]]; eauto. Qed.
Theorem strikeout_fails argv l fs parent from into b1 b2 b3 : real_files fs ->
  spelled digit merge_command argv l -> operands_of l = [parent; from; into] -> compatible (flags_of l) ->
  In (Flag FStrikeout) l -> In (Flag FDiff) l ->
  dget fs parent = Some b1 -> dget fs from = Some b2 -> dget fs into = Some b3 ->
  let o := options_of (mkNs (operands_of l) (flags_of l) (last_output l) false) in
  forall dc dt m,
  snd (diff re_w (tokenizer_of o) new_tokenizer (CStr (read_text b1)) (CStr (read_text b3))) = Ok dc ->
  snd (diff re_w (tokenizer_of o) new_tokenizer (CStr (read_text b1)) (CStr (read_text b2))) = Ok dt ->
  merge_result re_w o (read_text b1) (read_text b3) (read_text b2) = Ok m ->
  existsb (removes o) (dc ++ dt ++ m) = true ->
  exists fs' cells e, merge_program argv fs = (fs', Ran cells (Some e)).
Proof.
  intros RF SP O C FS FD G1 G2 G3 o dc dt m Hc Ht Hm X.
  assert (RT : forall n x, dget fs n = Some x -> real_text (read_text x)).
  { intros n x Gx. destruct (every_file_reads fs [n] RF) as (ts & T & _ & F); [repeat constructor; unfold dmem; rewrite Gx; reflexivity|].
    cbn [get_text] in T. rewrite Gx in T. injection T as <-. inversion F as [|? ? [F1 _] _]; subst. apply scalar_real. exact F1. }
  assert (OS : o_strikeout o = true) by (cbn [o options_of o_strikeout]; apply flag_given_in; cbn [n_flags]; apply in_flags; exact FS).
  assert (OD : o_diff o = true) by (cbn [o options_of o_diff]; apply flag_given_in; cbn [n_flags]; apply in_flags; exact FD).
  assert (E : forall pn cn tn, exists chunks, snd (merge_cli re_w space o (read_text b1) (read_text b3) (read_text b2) pn cn tn initial_styles) = (chunks, Some TypeError)).
  { intros pn cn tn. pose proof (merge_strikeout space re_w o (read_text b1) (read_text b3) (read_text b2) pn cn tn dc dt m OS OD
      (RT _ _ G1) (RT _ _ G3) (RT _ _ G2) Hc Ht Hm) as Y. rewrite X in Y.
    destruct (snd (merge_cli re_w space o _ _ _ pn cn tn initial_styles)) as [chunks y]. cbn [snd] in Y. subst y. eauto. }
  specialize (E (basename parent) (basename into) (basename from)). destruct E as [chunks E].
  unfold gaspra_merge. rewrite (spelled_parse _ _ _ SP) by (try exact C; rewrite O; reflexivity).
  cbn [n_operands]. rewrite O. unfold run_merge. cbn [n_output]. destruct (last_output l) as [[|x out]|] eqn:L; [eauto| |].
  - unfold merge_files. cbn [get_text]. rewrite G1, G2, G3. cbn [bind].
    assert (OW : with_output o = o) by (unfold with_output, o, options_of; cbn; rewrite ?L; reflexivity).
    assert (OE : options_of (mkNs [parent; from; into] (flags_of l) (Some (x :: out)) false) = o) by (unfold o; rewrite ?O, ?L; reflexivity).
    rewrite OE, OW, E. destruct (write_fails fs (x :: out) chunks TypeError) as (fs' & y & ->). eauto.
  - cbn [get_text]. rewrite G1, G2, G3. cbn [bind].
    assert (OE : options_of (mkNs [parent; from; into] (flags_of l) None false) = o) by (unfold o; rewrite ?O, ?L; reflexivity).
    rewrite OE, E. destruct (print_fails chunks TypeError) as (cells & y & ->). eauto.
Qed.

(** what the accepted command lines run *)
Lemma bool_iff (b b' : bool) (P : Prop) : (b = true <-> P) -> (b' = true <-> P) -> b = b'.
Proof. destruct b, b'; intuition congruence. Qed.
Lemma asks_options l o : asks l o -> last_output l <> Some [] -> options_of (mkNs (operands_of l) (flags_of l) (last_output l) false) = o.
Proof.
  intros (A1 & A2 & A3 & A4 & A5 & A6 & A7) N. destruct o as [x1 x2 x3 x4 x5 x6 x7]. unfold options_of. cbn in *.
  assert (G : forall b f, (b = true <-> In (Flag f) l) -> flag_given (mkNs (operands_of l) (flags_of l) (last_output l) false) f = b).
  { intros b f H. apply (bool_iff _ _ (In (Flag f) l)); [|exact H]. rewrite flag_given_in. cbn [n_flags]. apply in_flags. }
  f_equal; try (apply G; assumption). destruct (last_output l) as [[|y t]|], x1; intuition congruence.
Qed.
Theorem merge_runs argv l fs parent from into o : spelled digit merge_command argv l -> operands_of l = [parent; from; into] ->
  compatible (flags_of l) -> asks l o ->
  (forall out, last_output l = Some out -> out <> [] ->
    merge_program argv fs = (let '(fs', x) := merge_files linesep re_w space fs o parent into from out in (fs', Ran [] x))) /\
  (forall p i f, last_output l = None -> get_text fs [parent; into; from] = Ok [p; i; f] ->
    merge_program argv fs = (fs, let '(cells, x) := on_console sp emoji normalize
      (snd (merge_cli re_w space o p i f (basename parent) (basename into) (basename from) initial_styles)) in Ran cells x)).
Proof.
  intros SP O C A. split.
  - intros out L N. rewrite (merge_writes argv l fs parent from into out SP O C L N), (asks_options l o A) by congruence. reflexivity.
  - intros p i f L G. unfold gaspra_merge. rewrite (spelled_parse _ _ _ SP) by (try exact C; rewrite O; reflexivity).
    cbn [n_operands]. rewrite O at 1. unfold run_merge. cbn [n_output]. rewrite L at 1. rewrite G, (asks_options l o A) by congruence. reflexivity.
Qed.
Theorem diff_runs argv l fs original modified o : spelled digit diff_command argv l -> operands_of l = [original; modified] ->
  compatible (flags_of l) -> asks l o ->
  (forall out, last_output l = Some out -> out <> [] ->
    diff_program argv fs = (let '(fs', x) := diff_files linesep re_w space fs o original modified out in (fs', Ran [] x))) /\
  (forall a b, last_output l = None -> get_text fs [original; modified] = Ok [a; b] ->
    diff_program argv fs = (fs, let '(cells, x) := on_console sp emoji normalize
      (snd (diff_cli re_w space o a b (basename original) (basename modified) initial_styles)) in Ran cells x)).
Proof.
  intros SP O C A. unfold gaspra_diff. rewrite (spelled_parse _ _ _ SP) by (try exact C; rewrite O; reflexivity). split.
  - intros out L N. cbn [n_operands n_output]. rewrite O at 1. rewrite L at 1. rewrite (asks_options l o A) by congruence.
    destruct out; [contradiction|]. reflexivity.
  - intros a b L G. cbn [n_operands n_output]. rewrite O at 1. rewrite L at 1. rewrite G, (asks_options l o A) by congruence. reflexivity.
Qed.
(** an input that is not there *)
Theorem merge_missing argv l fs parent from into : spelled digit merge_command argv l -> operands_of l = [parent; from; into] ->
  compatible (flags_of l) -> (exists n, In n [parent; from; into] /\ dget fs n = None) ->
  merge_program argv fs = (fs, Ran [] (Some OSError)).
Proof.
  intros SP O C M. unfold gaspra_merge. rewrite (spelled_parse _ _ _ SP) by (try exact C; rewrite O; reflexivity).
  cbn [n_operands]. rewrite O at 1. unfold run_merge. cbn [n_output].
  assert (G : get_text fs [parent; into; from] = Err OSError).
  { destruct M as (n & J & D). cbn [get_text]. destruct J as [<-|[<-|[<-|[]]]]; rewrite D.
    - reflexivity.
    - destruct (dget fs parent), (dget fs into); reflexivity.
    - destruct (dget fs parent); reflexivity. }
  destruct (last_output l) as [[|x out]|]; [reflexivity| |].
  - unfold merge_files. rewrite G. reflexivity.
  - rewrite G. reflexivity.
Qed.

Theorem diff_missing argv l fs original modified : spelled digit diff_command argv l -> operands_of l = [original; modified] ->
  compatible (flags_of l) -> (exists n, In n [original; modified] /\ dget fs n = None) ->
  diff_program argv fs = (fs, Ran [] (Some OSError)).
Proof.
  intros SP O C M. unfold gaspra_diff. rewrite (spelled_parse _ _ _ SP) by (try exact C; rewrite O; reflexivity).
  cbn [n_operands n_output]. rewrite O at 1.
  assert (G : get_text fs [original; modified] = Err OSError).
  { destruct M as (n & J & D). cbn [get_text]. destruct J as [<-|[<-|[]]]; rewrite D.
    - reflexivity.
    - destruct (dget fs original); reflexivity. }
  destruct (last_output l) as [[|x out]|]; [reflexivity| |].
  - unfold diff_files. rewrite G. reflexivity.
  - rewrite G. reflexivity.
Qed.

(** * gaspra-torture *)
Theorem torture_is_merge argv argv' l l' fs t parent branch0 branch1 :
  spelled digit torture_command argv l -> spelled digit merge_command argv' l' ->
  operands_of l = [t] -> get_filenames directory t = (parent, branch0, branch1) -> operands_of l' = [parent; branch1; branch0] ->
  last_output l = last_output l' -> (forall f, In (Flag f) l <-> In (Flag f) l') ->
  torture_program argv fs = merge_program argv' fs.
Proof.
  intros SP SP' O G O' L F.
  assert (F' : forall f, In f (flags_of l) <-> In f (flags_of l')) by (intros f; rewrite !in_flags; apply F).
  assert (CC : compatible (flags_of l) <-> compatible (flags_of l')).
  { unfold compatible. split; intros H f g Jf Jg; apply H; apply F'; assumption. }
  unfold gaspra_torture, gaspra_merge. destruct (parse_args digit torture_command argv) as [n|z] eqn:P.
  - apply (parse_exactly digit _ DO argv _ (spelled_one digit _ DO argv l SP)) in P as (m & SM & LM & CM & ->). rewrite <- (spelled_unique digit _ DO argv l SP m SM) in *.
    rewrite (spelled_parse _ _ _ SP') by (try (apply CC; exact CM); rewrite O'; reflexivity). cbn [n_operands]. rewrite O, O', G.
    apply run_options; [exact L|]. apply same_options; [exact F'|exact L].
  - assert (NC : ~ compatible (flags_of l)).
    { intros C. rewrite (spelled_parse _ _ _ SP) in P; [discriminate|rewrite O; reflexivity|exact C]. }
    rewrite (spelled_rejected digit _ DO argv l SP) in P by auto. injection P as <-.
    rewrite (spelled_rejected digit _ DO argv' l' SP') by (right; rewrite <- CC; exact NC). reflexivity.
Qed.
(** where the files are *)
Lemma filenames_plain t : dget EXCEPTIONS t = None -> t <> [] -> ~ prefix [47] t ->
  get_filenames directory t = (directory ++ str "/" ++ t ++ str ".parent", directory ++ str "/" ++ t ++ str ".1st", directory ++ str "/" ++ t ++ str ".2nd").
Proof.
  intros E N P. unfold get_filenames. rewrite E. unfold join. destruct t as [|x t]; [contradiction|].
  assert (S : forall r, starts_with [47] ((x :: t) ++ r) = false).
  { intros r. destruct (starts_with [47] ((x :: t) ++ r)) eqn:W; [|reflexivity]. exfalso. apply P. cbn [app starts_with] in W. rewrite andb_true_r in W.
    apply Z.eqb_eq in W. subst. exists t. reflexivity. }
  rewrite !S. reflexivity.
Qed.
Lemma filenames_listed :
  let file n := directory ++ str "/" ++ str n in
  get_filenames directory (str "chunks") = (file "chunks_1_0.c"%string, file "chunks_1_1.c"%string, file "chunks_1_2.c"%string) /\
  get_filenames directory (str "ReleaseNotes") = (file "ReleaseNotes 9_4.html"%string, file "ReleaseNotes 9_4_1.html"%string, file "ReleaseNotes 9_4_2.html"%string) /\
  get_filenames directory (str "Bug_ReporterApp") = (file "Bug_ReporterApp_Parent.h"%string, file "Bug_ReporterApp_BranchA.h"%string, file "Bug_ReporterApp_BranchB.h"%string).
Proof. repeat split; reflexivity. Qed.
Lemma filenames_distinct t : forall p b0 b1, get_filenames directory t = (p, b0, b1) -> p <> b0 /\ p <> b1 /\ b0 <> b1.
Proof.
  intros p b0 b1 H. unfold get_filenames in H.
  assert (J : forall x y, x <> y -> join directory (t ++ x) <> join directory (t ++ y) \/ t = []).
  { intros x y N. destruct t as [|c t]; [now right|left]. unfold join. cbn [app starts_with]. destruct (_ && _); intros E.
    - injection E as E. now apply app_inv_head in E.
    - apply app_inv_head in E. injection E as E. now apply app_inv_head in E. }
  destruct (dget EXCEPTIONS t) as [[[a b] c]|] eqn:X; injection H as <- <- <-.
  - unfold EXCEPTIONS in X. cbn [dget] in X.
    repeat (destruct (teq _ t) in X; [injection X as <- <- <-; unfold join; cbn [starts_with str]; repeat split; intros E; cbn in E; apply app_inv_head in E; discriminate|]).
    discriminate.
  - destruct t as [|c t].
    + unfold join. cbn [app starts_with]. repeat split; intros E; cbn in E; apply app_inv_head in E; discriminate.
    + repeat split; match goal with |- join _ (_ ++ ?x) <> join _ (_ ++ ?y) => destruct (J x y) as [K|K]; [discriminate|exact K|discriminate] end.
Qed.
End Programs.

(** * Abbreviations of more than one option *)
Lemma ambiguous_class digit c p v n n' : ~ In 61 p -> v = [] \/ (exists s, v = 61 :: s) -> is_name c n -> is_name c n' -> n <> n' -> prefix p n -> prefix p n' ->
  classify digit c (45 :: 45 :: p ++ v) = CAmbiguous.
Proof.
  intros E V Hn Hn' N P P'. rewrite classify_long.
  assert (C : exists x, cut (p ++ v) = (p, x)).
  { unfold cut. destruct V as [->|(s & ->)].
    - rewrite app_nil_r. apply split_none in E. rewrite E. eauto.
    - assert (Q : split_equals (p ++ 61 :: s) = Some (p, s)) by (apply split_some; auto). rewrite Q. eauto. }
  destruct C as [x ->]. destruct (matches c p) as [|[m a] [|? ?]] eqn:M; [|exfalso|reflexivity].
  - destruct (proj1 (matches_none c p) M n Hn P).
  - apply matches_one in M as (_ & _ & U). apply N. rewrite (U n Hn P), (U n' Hn' P'). reflexivity.
Qed.
Theorem parse_ambiguous digit c pre p v post n n' : ~ In (str "--") pre -> ~ In 61 p -> v = [] \/ (exists s, v = 61 :: s) ->
  p ++ v <> [] -> is_name c n -> is_name c n' -> n <> n' -> prefix p n -> prefix p n' ->
  parse_args digit c (pre ++ (45 :: 45 :: p ++ v) :: post) = Exit 2.
Proof.
  intros D E V NE Hn Hn' N P P'. unfold parse_args.
  assert (X : existsb (fun e => is_ambiguous (snd e)) (classify_all digit c (pre ++ (45 :: 45 :: p ++ v) :: post)) = true).
  { induction pre as [|s pre IH]; cbn [app classify_all].
    - destruct (teq_spec (45 :: 45 :: p ++ v) (str "--")) as [Q|_].
      + exfalso. apply NE. change (str "--") with [45; 45] in Q. now injection Q.
      + cbn [existsb snd]. rewrite (ambiguous_class digit c p v n n') by assumption. reflexivity.
    - destruct (teq_spec s (str "--")) as [->|_]; [exfalso; apply D; now left|]. cbn [existsb snd].
      rewrite IH; [apply orb_true_r|]. intros H. apply D. now right. }
  now rewrite X.
Qed.
(** gaspra-torture has the options of gaspra-merge *)
Lemma says_same c c' : c_diff c = c_diff c' -> forall s k, says c s k -> says c' s k.
Proof.
  intros D.
  assert (H : forall f, has c f -> has c' f) by (intros f; unfold has; now rewrite D).
  assert (F : forall fs, Forall (has c) fs -> Forall (has c') fs) by (intros fs; apply Forall_impl; exact H).
  assert (N : forall n, is_name c n <-> is_name c' n) by (intros n; unfold is_name, has; now rewrite D).
  assert (A : forall p n, abbreviates c p n -> abbreviates c' p n).
  { intros p n (I & P & U). split; [now apply N|split; [exact P|]]. intros n' I'. apply U. now apply N. }
  intros s k [fs X Y|fs s' X|fs x s' X Y|f p X Y|p s' X].
  - now apply says_letters; auto.
  - apply says_equals; auto.
  - apply says_joined; auto.
  - apply says_name; auto.
  - apply says_output; auto.
Qed.
Lemma spelled_same digit c c' : c_diff c = c_diff c' -> forall argv l, spelled digit c argv l -> spelled digit c' argv l.
Proof.
  intros D.
  assert (H : forall f, has c f -> has c' f) by (intros f; unfold has; now rewrite D).
  assert (F : forall fs, Forall (has c) fs -> Forall (has c') fs) by (intros fs; apply Forall_impl; exact H).
  assert (N : forall n, is_name c n <-> is_name c' n) by (intros n; unfold is_name, has; now rewrite D).
  assert (L : forall x, is_letter c x <-> is_letter c' x) by (intros x; unfold is_letter, has; now rewrite D).
  assert (A : forall p n, abbreviates c p n -> abbreviates c' p n).
  { intros p n (I & P & U). split; [now apply N|split; [exact P|]]. intros n' I'. apply U. now apply N. }
  assert (O : forall s, operand_like digit c s -> operand_like digit c' s).
  { intros s [X|[X|[X|(X & [(x & r & Y)|(p & r & Y1 & Y2 & Y3 & Y4)])]]]; [now left|right; now left|do 2 right; now left| |].
    - do 3 right. split; [exact X|]. left. exists x, r. rewrite <- L. exact Y.
    - do 3 right. split; [exact X|]. right. exists p, r. repeat split; auto. intros n I. apply Y4. now apply N. }
  assert (P : forall s k, opens c s k -> opens c' s k).
  { intros s k [fs X|p X]; [apply opens_letters; auto|apply opens_name; auto]. }
  intros argv l S. induction S.
  - apply spelled_nil.
  - apply spelled_operand; auto.
  - apply spelled_says; auto. now apply (says_same c).
  - apply spelled_opens; auto.
  - apply spelled_dashes; auto.
  - apply spelled_end; auto.
Qed.
Theorem torture_options digit argv l : spelled digit torture_command argv l <-> spelled digit merge_command argv l.
Proof. split; apply spelled_same; reflexivity. Qed.
