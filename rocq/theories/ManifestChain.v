(** Manifests in a row: every call succeeds. *)
From Coq Require Import ZArith Lia.
From Verif Require Import Base Changesets Serialize Tokenizers SpecTokenizers Tree SpecTree
  Versions SpecVersions VersionsPatch VersionsInv VersionsProofs
  Json Manifest SpecManifest JsonProofs ManifestDocs ManifestProofs.
Local Open Scope nat_scope.

Section C.
Variable re_w : Z -> bool.
Variable tk : tkind.
Variables HS DS : store tag.
Variable TR : tree_impl tag.
Variable HL : store_law HS.
Variable DL : store_law DS.
Variable TL : tree_law TR.
Hypothesis Hk : tk <> KLine.
Notation run := (run re_w tk HS DS TR v_empty).
Notation add := (add re_w tk HS DS TR).
Notation add_files := (add_files re_w tk HS DS TR).
Notation do_call := (do_call re_w tk HS DS TR).
Notation after_calls := (after_calls re_w tk HS DS TR).
Notation outcomes := (outcomes re_w tk HS DS TR).
Implicit Type h : list (adding tag).
Variable content : tag -> list Z.
Notation proper := (proper tk content).
Notation accounts := (accounts content).

(** adding a version on a head, or on nothing *)
Lemma add_succeeds h t b base : fresh tk (h ++ [(t, b, base)]) ->
  match base with None => True | Some x => is_head h x end ->
  snd (add t b base (run h)) = (run (h ++ [(t, b, base)]), Ok tt).
Proof.
  intros F Hb. pose proof (run_add re_w tk HS DS TR h t b base) as R.
  pose proof (proj1 (results re_w tk HS DS TR HL DL TL h (t, b, base) Hk F) Hb) as Res.
  unfold add_result in Res. destruct (add t b base (run h)) as [tr [v r]]. cbn [fst snd] in *. now subst.
Qed.
Lemma head_snoc h t b base u : fresh tk (h ++ [(t, b, base)]) ->
  is_head (h ++ [(t, b, base)]) u <-> u = t \/ (is_head h u /\ base <> Some u).
Proof.
  intros F. destruct (fresh_snoc _ _ _ F) as [_ [H1 [H2 _]]].
  rewrite is_head_snoc by assumption. reflexivity.
Qed.

Section Loop.
Variable contents : dict tag (list Z).
Hypothesis Hcont : forall t b, dget contents t = Some b -> b = content t /\ storable tk b.
Variable bm : option json.

(** [base name] is the version under which a new version of the file is put *)
Variable base : tag -> option tag.
Hypothesis Hbase : forall name, match base name with
  | Some x => base_of_file bm name = Ok (Some x)
  | None => bm = None \/ base_of_file bm name = Err KeyError
  end.

Lemma loop_ok : forall m h, fresh tk h ->
  NoDup (dkeys m) -> NoDup (dvalues m) ->
  (forall name t, In (name, t) m ->
     (is_head h t /\ base name = Some t) \/
     (~ added h t /\ dget contents t <> None /\
      match base name with None => bm = None | Some x => is_head h x /\ x <> t end)) ->
  (forall n1 n2 x, In n1 (dkeys m) -> In n2 (dkeys m) -> base n1 = Some x -> base n2 = Some x -> n1 = n2) ->
  exists hn, snd (add_files m contents bm (run h)) = (run (h ++ hn), Ok tt) /\ fresh tk (h ++ hn) /\
    (forall t b base, In (t, b, base) hn -> In t (dvalues m) /\ b = content t) /\
    (forall t, In t (dvalues m) -> is_head (h ++ hn) t) /\
    (forall u, is_head h u -> (forall name t, In (name, t) m -> base name = Some u -> t = u) -> is_head (h ++ hn) u).
Proof.
  induction m as [|[name t] m IH]; intros h F Nk Nv Hm Hinj.
  { exists []. rewrite app_nil_r. split; [reflexivity|]. split; [assumption|]. split; [intros ? ? ? []|]. split; [intros ? []|auto]. }
  cbn in Nk, Nv. inversion Nk as [|? ? Nk1 Nk2]; subst. inversion Nv as [|? ? Nv1 Nv2]; subst.
  assert (Hinj' : forall n1 n2 x, In n1 (dkeys m) -> In n2 (dkeys m) -> base n1 = Some x -> base n2 = Some x -> n1 = n2)
    by (intros n1 n2 x K1 K2; apply (Hinj n1 n2 x); now right).
  rewrite (add_files_cons re_w tk HS DS TR).
  destruct (Hm name t (or_introl eq_refl)) as [[Hh Hb]|[Hna [Hc Hb]]].
  - (* the version is known *)
    assert (Ec : contains HS DS TR (run h) t = true)
      by (apply (contains_run re_w tk HS DS TR HL DL TL Hk h t F); now apply is_head_added).
    rewrite Ec. destruct (IH h F Nk2 Nv2) as [hn [E [F' [H0 [H1 H2]]]]]; [intros; apply Hm; now right|assumption|].
    destruct (add_files m contents bm (run h)) as [t2 r2]. cbn [snd] in *. subst r2.
    exists hn. split; [reflexivity|]. split; [assumption|]. split; [|split].
    + intros u bu xu Hin. destruct (H0 u bu xu Hin). split; [right|]; assumption.
    + intros u [<-|Hu]; [|now apply H1]. cbn. apply H2; [assumption|]. intros n' t' Hin Hb'.
      exfalso. apply Nk1. replace name with n'; [unfold dkeys; apply in_map_iff; now exists (n', t')|].
      apply (Hinj n' name t); auto; [right; unfold dkeys; apply in_map_iff; now exists (n', t')|now left].
    + intros u Hu Hall. apply H2; [assumption|]. intros n' t' Hin. apply (Hall n' t'). now right.
  - (* a new version *)
    assert (Ec : contains HS DS TR (run h) t = false).
    { destruct (contains HS DS TR (run h) t) eqn:Ec; [|reflexivity].
      apply (contains_run re_w tk HS DS TR HL DL TL Hk h t F) in Ec. contradiction. }
    rewrite Ec. destruct (dget contents t) as [b|] eqn:Eb; [|contradiction].
    destruct (Hcont t b Eb) as [Hbc Hs].
    assert (Ebase : base_of_file bm name = Ok (base name)).
    { specialize (Hbase name). destruct (base name) as [x|]; [assumption|]. now rewrite Hb. }
    rewrite Ebase.
    assert (Hbt : base name <> Some t) by (destruct (base name) as [x|]; [destruct Hb; congruence|discriminate]).
    pose proof (fresh_app tk h t b (base name) F Hna Hbt Hs) as F1.
    assert (Hx : match base name with None => True | Some x => is_head h x end)
      by (destruct (base name); [apply Hb|exact I]).
    pose proof (add_succeeds h t b (base name) F1 Hx) as Ad.
    destruct (add t b (base name) (run h)) as [t1 [v1 r1]]. cbn [snd] in Ad. injection Ad as -> ->.
    set (h1 := h ++ [(t, b, base name)]) in *.
    assert (Keep : forall u, is_head h u -> base name <> Some u -> is_head h1 u)
      by (intros u Hu Hb'; apply head_snoc; [assumption|right; now split]).
    destruct (IH h1 F1 Nk2 Nv2) as [hn [E [F' [H0 [H1 H2]]]]]; [|assumption|].
    { intros n' t' Hin. assert (Hkey : In n' (dkeys m)) by (unfold dkeys; apply in_map_iff; now exists (n', t')).
      assert (Hne : n' <> name) by (intros ->; contradiction).
      assert (Hval : t' <> t) by (intros ->; apply Nv1; unfold dvalues; apply in_map_iff; now exists (n', t)).
      assert (Hdiff : forall x, base n' = Some x -> base name <> Some x).
      { intros x K1 K2. apply Hne. apply (Hinj n' name x); auto; [now right|now left]. }
      destruct (Hm n' t' (or_intror Hin)) as [[K1 K2]|[K1 [K2 K3]]].
      - left. split; [|assumption]. apply Keep; [assumption|]. now apply Hdiff.
      - right. split; [|split; [assumption|]].
        + unfold h1. rewrite added_app. intros [K|[K|[]]]; [contradiction|]. cbn in K. congruence.
        + destruct (base n') as [x|] eqn:Ex; [|assumption]. destruct K3 as [K3 K4]. split; [|assumption].
          apply Keep; [assumption|]. now apply Hdiff. }
    destruct (add_files m contents bm (run h1)) as [t2 r2]. cbn [snd] in *. subst r2.
    exists ((t, b, base name) :: hn). unfold h1 in *. rewrite <- app_assoc in *. cbn [app] in *.
    split; [reflexivity|]. split; [assumption|]. split; [|split].
    + intros u bu xu [K|Hin]; [injection K as <- <- <-; split; [now left|assumption]|].
      destruct (H0 u bu xu Hin). split; [right|]; assumption.
    + intros u [<-|Hu]; [|now apply H1]. cbn. apply H2.
      * apply head_snoc; [assumption|now left].
      * intros n' t' Hin Hb'. destruct (Hm n' t' (or_intror Hin)) as [[K1 K2]|[K1 [K2 K3]]].
        -- exfalso. apply Hna. apply is_head_added. rewrite K2 in Hb'. injection Hb' as <-. assumption.
        -- exfalso. rewrite Hb' in K3. apply Hna. now apply is_head_added.
    + intros u Hu Hall. apply H2.
      * apply Keep; [assumption|]. intros K. apply Hbt. rewrite K. f_equal. symmetry. apply (Hall name); [now left|assumption].
      * intros n' t' Hin. apply (Hall n' t'). now right.
Qed.
End Loop.

(** a call that gets through the loop with all its versions heads *)
Lemma call_succeeds calls c h hn bm : proper (calls ++ [c]) -> accounts calls h ->
  base_manifest re_w tk HS DS TR (run h) (mc_base c) = Ok bm ->
  snd (add_files (mc_files c) (mc_contents c) bm (run h)) = (run (h ++ hn), Ok tt) ->
  fresh tk (h ++ hn) ->
  (forall t b base, In (t, b, base) hn -> In t (dvalues (mc_files c)) /\ b = content t) ->
  (forall t, In t (dvalues (mc_files c)) -> is_head (h ++ hn) t) ->
  match mc_base c with None => True | Some x => is_head (h ++ hn) x end ->
  exists h2, do_call (run h) c = (run h2, Ok tt) /\ fresh tk h2 /\ accounts (calls ++ [c]) h2 /\
    is_head h2 (mc_tag c) /\ forall t, In t (dvalues (mc_files c)) -> is_head h2 t.
Proof.
  intros P A Eb E F H0 H1 Hb.
  assert (Hc : In c (calls ++ [c])) by (apply in_app_iff; right; now left).
  pose proof (p_files _ _ _ P c Hc) as Mok. destruct (docs_ok (mc_files c) Mok) as [doc [D1 [D2 D3]]].
  pose proof (doc_storable tk (mc_files c) doc Mok D1 (p_size _ _ _ P c doc Hc D1)) as St.
  assert (Hbt : mc_base c <> Some (mc_tag c)) by (intros K; now destruct (p_base _ _ _ P c _ Hc K)).
  assert (Hna : ~ added (h ++ hn) (mc_tag c)).
  { intros K. apply added_In in K as [b [base K]]. apply in_app_iff in K as [K|K].
    - destruct (A _ _ _ K) as [[p [Hp [Ht _]]]|[Hf _]].
      + pose proof (p_tags _ _ _ P) as N. rewrite map_app in N. cbn in N.
        apply NoDup_remove_2 in N. rewrite app_nil_r in N. apply N. rewrite Ht. now apply in_map.
      + apply (p_apart _ _ _ P c Hc). apply file_tag_snoc. now left.
    - destruct (H0 _ _ _ K) as [Hv _]. apply (p_apart _ _ _ P c Hc). apply file_tag_snoc. now right. }
  pose proof (fresh_app tk (h ++ hn) (mc_tag c) doc (mc_base c) F Hna Hbt St) as F2.
  pose proof (add_succeeds (h ++ hn) (mc_tag c) doc (mc_base c) F2 Hb) as Ad.
  exists ((h ++ hn) ++ [(mc_tag c, doc, mc_base c)]).
  rewrite (do_call_unfold re_w tk HS DS TR), Eb, E, D1. split; [exact Ad|]. split; [assumption|]. split; [|split].
  - intros t b base Hin. apply in_app_iff in Hin as [Hin|[K|[]]].
    + apply in_app_iff in Hin as [Hin|Hin].
      * destruct (A t b base Hin) as [[p [Hp [Ht [Hd Hu]]]]|[Hf Hb']].
        -- left. exists p. split; [apply in_app_iff; now left|]. do 2 (split; [assumption|]).
           intros u K. apply added_app. left. apply added_app. left. auto.
        -- right. split; [apply file_tag_snoc; now left|assumption].
      * destruct (H0 t b base Hin) as [Ht Hb']. right. split; [apply file_tag_snoc; now right|assumption].
    + injection K as <- <- <-. left. exists c. split; [assumption|]. split; [reflexivity|]. split; [assumption|].
      intros u K. apply added_app. left. apply is_head_added. auto.
  - apply head_snoc; [assumption|now left].
  - intros t Ht. apply head_snoc; [assumption|]. right. split; [auto|].
    intros K. destruct (p_base _ _ _ P c t Hc K) as [_ Q]. apply Q, file_tag_snoc. now right.
Qed.

Definition at_head calls c : Prop :=
  Forall (fun o => o = Ok tt) (outcomes v_empty (calls ++ [c])) /\
  NoDup (dvalues (mc_files c)) /\
  exists h, after_calls v_empty (calls ++ [c]) = run h /\ fresh tk h /\ accounts (calls ++ [c]) h /\
    is_head h (mc_tag c) /\ forall t, In t (dvalues (mc_files c)) -> is_head h t.

Lemma chain_first c : mc_base c = None -> NoDup (dvalues (mc_files c)) ->
  (forall t, In t (dvalues (mc_files c)) -> dget (mc_contents c) t <> None) -> proper [c] -> at_head [] c.
Proof.
  intros Hb Nv Hcn P. assert (Hc : In c [c]) by now left.
  assert (F0 : fresh tk (@nil (adding tag))) by (split; constructor).
  assert (A0 : accounts [] []) by (intros ? ? ? []).
  destruct (loop_ok (mc_contents c) (fun t b => p_contents _ _ _ P c t b Hc) None (fun _ => None)
    (fun _ => or_introl eq_refl) (mc_files c) [] F0 (proj1 (p_files _ _ _ P c Hc)) Nv)
    as [hn [E [F [H0 [H1 _]]]]].
  { intros name t Hin. right. split; [intros []|]. split; [|reflexivity]. apply Hcn. now apply In_dvalues in Hin. }
  { discriminate. }
  destruct (call_succeeds [] c [] hn None P A0) as [h2 [Ec [F2 [A2 [Hh Ht]]]]]; auto; try (now rewrite Hb).
  split; [|split; [assumption|]].
  - change (run []) with (v_empty : @vstate tag HS DS TR) in Ec.
    cbn [app SpecManifest.outcomes]. rewrite Ec. constructor; [reflexivity|constructor].
  - change (run []) with (v_empty : @vstate tag HS DS TR) in Ec.
    exists h2. split; [|auto]. unfold SpecManifest.after_calls. cbn [app fold_left]. now rewrite Ec.
Qed.

Lemma dget_dvalues (m : manifest) k t : dget m k = Some t -> In t (dvalues m).
Proof. intros H. apply dget_In in H. now apply In_dvalues in H. Qed.
Lemma dvalues_inj (m : manifest) k k' t : NoDup (dvalues m) -> dget m k = Some t -> dget m k' = Some t -> k = k'.
Proof.
  intros N H H'. apply dget_In in H. apply dget_In in H'. revert N H H'.
  induction m as [|[k0 t0] m IH]; intros N H H'; [destruct H|]. cbn in N. inversion N as [|? ? N1 N2]; subst.
  destruct H as [E|H], H' as [E'|H'].
  - congruence.
  - injection E as -> ->. exfalso; apply N1. now apply In_dvalues in H'.
  - injection E' as -> ->. exfalso; apply N1. now apply In_dvalues in H.
  - now apply IH.
Qed.

Lemma chain_step calls prev c : at_head calls prev -> proper ((calls ++ [prev]) ++ [c]) ->
  replaces (calls ++ [prev]) prev c -> at_head (calls ++ [prev]) c.
Proof.
  intros [O [Np [h [E [F [A [Hh Ht]]]]]]] P [Hb [Nv Hf]].
  assert (Hc : In c ((calls ++ [prev]) ++ [c])) by (apply in_app_iff; right; now left).
  assert (Hprev : In prev (calls ++ [prev])) by (apply in_app_iff; right; now left).
  pose proof (p_files _ _ _ P c Hc) as Mok.
  assert (Mp : manifest_ok (mc_files prev)) by (apply (p_files _ _ _ P), in_app_iff; now left).
  (* the base manifest is the previous one *)
  assert (Eb : base_manifest re_w tk HS DS TR (run h) (mc_base c) = Ok (Some (as_dict (mc_files prev)))).
  { destruct (added_In h _ (is_head_added _ _ Hh)) as [b [base Hin]].
    rewrite Hb. cbn [base_manifest]. rewrite (get_run re_w tk HS DS TR HL DL TL Hk h _ _ _ F Hin). cbn [bind].
    destruct (A _ _ _ Hin) as [[q [Hq [Hqt [Hdoc _]]]]|[K _]].
    - assert (prev = q) as <- by (apply (mc_tag_inj (calls ++ [prev])); auto; apply (p_tags _ _ _ (proper_snoc _ _ _ _ P))).
      destruct (docs_ok (mc_files prev) Mp) as [doc [D1 [D2 _]]].
      rewrite Hdoc in D1. injection D1 as ->. rewrite D2. reflexivity.
    - exfalso. destruct (p_base _ _ _ P c _ Hc Hb) as [_ Q]. apply Q, file_tag_snoc. now left. }
  set (base := fun name => dget (mc_files prev) name).
  assert (Hbase : forall name, match base name with
    | Some x => base_of_file (Some (as_dict (mc_files prev))) name = Ok (Some x)
    | None => Some (as_dict (mc_files prev)) = None \/ base_of_file (Some (as_dict (mc_files prev))) name = Err KeyError
    end).
  { intros name. rewrite (file_base _ name Mp). unfold base. destruct (dget (mc_files prev) name); [reflexivity|now right]. }
  assert (Hold : forall x, In x (dvalues (mc_files prev)) -> file_tag (calls ++ [prev]) x)
    by (intros x K; exists prev; auto).
  destruct (loop_ok (mc_contents c) (fun t b => p_contents _ _ _ P c t b Hc) _ base Hbase (mc_files c) h F
    (proj1 Mok) Nv) as [hn [E2 [F2 [H0 [H1 H2]]]]].
  { intros name t Hin. destruct (Hf name t Hin) as [Hn [Hin'|[Hnew Hcn]]].
    - left. split; [apply Ht; now apply In_dvalues in Hin'|]. unfold base. apply In_dget; [apply Mp|assumption].
    - right. split; [|split; [assumption|]].
      + intros K. apply added_In in K as [b [bs K]]. destruct (A _ _ _ K) as [[q [Hq [Hqt _]]]|[K' _]]; [|exact (Hnew K')].
        apply (p_apart _ _ _ P q); [apply in_app_iff; now left|]. rewrite <- Hqt. apply file_tag_snoc. right.
        now apply In_dvalues in Hin.
      + unfold base. destruct (dget (mc_files prev) name) as [x|] eqn:Ex; [|apply dget_None in Ex; contradiction].
        apply dget_dvalues in Ex. split; [now apply Ht|]. intros ->. apply Hnew, Hold; assumption. }
  { intros n1 n2 x _ _. apply dvalues_inj. assumption. }
  assert (Hb2 : is_head (h ++ hn) (mc_tag prev)).
  { apply H2; [assumption|]. intros name t _ K. exfalso. apply dget_dvalues in K.
    destruct (p_base _ _ _ P c _ Hc Hb) as [_ Q]. apply Q, file_tag_snoc. left. now apply Hold. }
  destruct (call_succeeds (calls ++ [prev]) c h hn _ P A Eb E2 F2 H0 H1) as [h2 [Ec [F3 [A3 [Hh3 Ht3]]]]].
  { now rewrite Hb. }
  split; [|split; [assumption|]].
  - rewrite outcomes_snoc. apply Forall_app. split; [assumption|]. constructor; [|constructor]. now rewrite E, Ec.
  - exists h2. split; [|auto]. now rewrite after_snoc, E, Ec.
Qed.

Theorem chain_ok : forall calls, chain calls -> proper calls ->
  Forall (fun o => o = Ok tt) (outcomes v_empty calls).
Proof.
  assert (G : forall calls, chain calls -> proper calls -> exists cs c, calls = cs ++ [c] /\ at_head cs c).
  { intros calls C. induction C as [c Hb Nv Hc|calls prev c C IH R]; intros P.
    - exists [], c. split; [reflexivity|]. now apply chain_first.
    - exists (calls ++ [prev]), c. change [prev; c] with ([prev] ++ [c]) in *. rewrite app_assoc in *. split; [reflexivity|].
      destruct (IH (proper_snoc _ _ _ _ P)) as [cs [c' [E H]]]. apply app_inj_tail in E as [<- <-].
      now apply chain_step. }
  intros calls C P. destruct (G calls C P) as [cs [c [-> [H _]]]]. exact H.
Qed.
End C.
