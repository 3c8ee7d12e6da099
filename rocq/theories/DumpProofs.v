(** A written automaton is the automaton. *)
From Coq Require Import Permutation Lia.
From Verif Require Import Base Strings StringsExt Automaton AutomatonInv SpecSeq AutomatonProofs AutomatonLcs Dump SpecDump.

Section P.
Context {T : Type} {E : Teq T} {O : TeqOk T}.
Implicit Types (s w : list T) (h : heap T).

Lemma among_iff i l : among i l = true <-> In i l.
Proof.
  unfold among. rewrite existsb_exists. split; [intros [x [H1 H2]]; apply Nat.eqb_eq in H2; now subst|].
  intros H; exists i; split; [exact H|apply Nat.eqb_refl].
Qed.
Lemma among_not i l : among i l = false <-> ~ In i l.
Proof. rewrite <- among_iff. destruct (among i l); split; intros; congruence. Qed.

(** the lines for the nodes of a list *)
Definition dots h (l : list nat) : list (dot_line T) :=
  flat_map (fun i => match nth_error h i with Some nd => node_dot i nd | None => [] end) l.
Lemma dots_app h a b : dots h (a ++ b) = dots h a ++ dots h b.
Proof. apply flat_map_app. Qed.
Definition closed h (done more : list nat) : Prop :=
  forall i nd t j, In i done -> nth_error h i = Some nd -> In (t, j) (n_trans nd) -> In j done \/ In j more.
(** transitions of the nodes not in a list *)
Fixpoint rest_from (k : nat) h (done : list nat) : nat :=
  match h with
  | [] => 0
  | nd :: h => (if among k done then 0 else length (n_trans nd)) + rest_from (S k) h done
  end.
Lemma rest_nil h : forall k, rest_from k h [] = list_sum (map (fun nd => length (n_trans nd)) h).
Proof. induction h as [|nd h IH]; intros k; [reflexivity|]. cbn [rest_from map list_sum fold_right]. rewrite IH. reflexivity. Qed.
Lemma among_snoc i l x : among i (l ++ [x]) = among i l || (i =? x).
Proof. unfold among. rewrite existsb_app. cbn. now rewrite orb_false_r. Qed.
Lemma rest_other h : forall k done x, x < k -> rest_from k h (done ++ [x]) = rest_from k h done.
Proof.
  induction h as [|nd h IH]; intros k done x L; [reflexivity|]. cbn [rest_from]. rewrite IH by lia. rewrite among_snoc.
  replace (k =? x) with false by (symmetry; apply Nat.eqb_neq; lia). now rewrite orb_false_r.
Qed.
Lemma rest_step h : forall k done i nd, nth_error h i = Some nd -> among (k + i) done = false ->
  rest_from k h (done ++ [k + i]) + length (n_trans nd) = rest_from k h done.
Proof.
  induction h as [|x h IH]; intros k done [|i] nd H A; try discriminate; cbn in H; cbn [rest_from].
  - injection H as ->. rewrite Nat.add_0_r in *. rewrite rest_other by lia. rewrite among_snoc, A, Nat.eqb_refl. cbn. lia.
  - replace (k + S i) with (S k + i) in * by lia. pose proof (IH (S k) done i nd H A) as R.
    rewrite among_snoc. replace (k =? S k + i) with false by (symmetry; apply Nat.eqb_neq; lia). rewrite orb_false_r. lia.
Qed.

Section Loops.
Variable h : heap T.
Definition ranged : Prop := forall i nd t j, nth_error h i = Some nd -> In (t, j) (n_trans nd) -> j < length h.
Hypothesis R : ranged.

Lemma dot_loop_ok : forall fuel queue done,
  (forall i, In i queue -> i < length h) -> NoDup done -> closed h done queue -> length queue + rest_from 0 h done <= fuel ->
  exists done', dot_loop fuel h queue done (dots h done) = Some (dots h done') /\
    NoDup done' /\ incl done done' /\ incl queue done' /\ closed h done' [] /\
    (forall i, In i done' -> In i done \/ i < length h).
Proof.
  induction fuel as [|fuel IH]; intros [|c queue] done Q N C F; cbn [dot_loop length] in *; try lia.
  1, 2: exists done; split; [reflexivity|]; split; [exact N|]; split; [apply incl_refl|]; split; [intros ? []|]; split; [exact C|auto].
  destruct (among c done) eqn:A.
  - apply among_iff in A. destruct (IH queue done) as [d [H1 [H2 [H3 [H4 [H5 H6]]]]]]; [intros; apply Q; now right|exact N| |lia|].
    + intros i nd t j I1 I2 I3. destruct (C i nd t j I1 I2 I3) as [?|[<-|?]]; auto.
    + exists d. split; [exact H1|]. split; [exact H2|]. split; [exact H3|]. split; [|split; [exact H5|exact H6]].
      intros x [<-|X]; [now apply H3|now apply H4].
  - destruct (nth_error h c) as [nd|] eqn:Hc.
    2: { apply nth_error_None in Hc. specialize (Q c (or_introl eq_refl)). lia. }
    pose proof (rest_step h 0 done c nd Hc A) as RS. cbn in RS. pose proof (proj1 (among_not _ _) A) as A'.
    destruct (IH (rev (map snd (n_trans nd)) ++ queue) (done ++ [c])) as [d [H1 [H2 [H3 [H4 [H5 H6]]]]]].
    + intros i Hi. apply in_app_or in Hi as [Hi|Hi]; [|apply Q; now right].
      apply in_rev, in_map_iff in Hi as [[t j] [<- Hi]]. cbn. eapply R; eauto.
    + apply NoDup_app_intro; [exact N|repeat constructor; auto|]. intros x X [<-|[]]. now apply A'.
    + intros i nd' t j I1 I2 I3. apply in_app_or in I1 as [I1|[<-|[]]].
      * destruct (C i nd' t j I1 I2 I3) as [?|[<-|?]]; [left; apply in_or_app; now left|left; apply in_or_app; right; now left|].
        right; apply in_or_app; now right.
      * assert (nd' = nd) by congruence; subst nd'. right; apply in_or_app; left. rewrite <- in_rev.
        now apply (in_map snd _ (t, j)).
    + rewrite app_length, rev_length, map_length. lia.
    + exists d. split.
      * rewrite <- H1. f_equal. rewrite dots_app. f_equal. unfold dots; cbn [flat_map]. rewrite Hc. now rewrite app_nil_r.
      * split; [exact H2|]. split; [intros x X; apply H3; apply in_or_app; now left|]. split; [|split; [exact H5|]].
        -- intros x [<-|X]; [apply H3; apply in_or_app; right; now left|apply H4; apply in_or_app; now right].
        -- intros i Hi. destruct (H6 i Hi) as [Hx|Hx]; [|now right]. apply in_app_or in Hx as [Hx|[<-|[]]]; [now left|].
           right. apply nth_error_Some. congruence.
Qed.

(** the recursive dump, [meas] decreasing along the transitions *)
Variable meas : nat -> nat.
Hypothesis M : forall i nd t j, nth_error h i = Some nd -> In (t, j) (n_trans nd) -> meas j < meas i.
Definition blocks (l : list nat) : list (dump_line T) :=
  flat_map (fun i => match nth_error h i with Some nd => node_dump i nd | None => [] end) l.
Definition dump_post (dumped : list nat) (r : res (list nat * list (dump_line T))) (roots : list nat) : Prop :=
  exists new, r = Ok (dumped ++ new, blocks new) /\ NoDup (dumped ++ new) /\ incl roots (dumped ++ new) /\
    closed h new (dumped ++ new) /\ (forall i, In i new -> i < length h).
Lemma dump_all_ok limit tr : forall dumped, NoDup dumped ->
  (forall j dumped, In j (map snd tr) -> NoDup dumped -> dump_post dumped (dump_lim limit h j dumped) [j]) ->
  dump_post dumped (dump_all (dump_lim limit h) tr dumped) (map snd tr).
Proof.
  induction tr as [|[t j] tr IH]; intros dumped N H; cbn [dump_all map].
  - exists []. rewrite app_nil_r. split; [reflexivity|]. split; [exact N|]. split; [intros ? []|]. split; intros ? ? ? ? [] || intros ? [].
  - destruct (H j dumped (or_introl eq_refl) N) as [n1 [-> [N1 [I1 [C1 L1]]]]]. cbn [bind fst snd].
    destruct (IH (dumped ++ n1) N1) as [n2 [-> [N2 [I2 [C2 L2]]]]]; [intros; apply H; auto; now right|].
    cbn [bind fst snd]. rewrite <- app_assoc in *. exists (n1 ++ n2). split; [unfold blocks; now rewrite flat_map_app|].
    split; [exact N2|]. split; [|split].
    + intros x [<-|X]; [|now apply I2]. assert (Y := I1 _ (or_introl eq_refl)). rewrite !in_app_iff in *. tauto.
    + intros i nd t' j' X1 X2 X3. apply in_app_or in X1 as [X1|X1].
      * destruct (C1 i nd t' j' X1 X2 X3) as [Y|Y]; rewrite ?in_app_iff in *; tauto.
      * destruct (C2 i nd t' j' X1 X2 X3) as [Y|Y]; rewrite ?in_app_iff in *; tauto.
    + intros i X. apply in_app_or in X as [X|X]; auto.
Qed.
Lemma dump_lim_ok : forall limit root dumped, root < length h -> meas root < limit -> NoDup dumped ->
  dump_post dumped (dump_lim limit h root dumped) [root].
Proof.
  induction limit as [|limit IH]; intros root dumped L F N; [lia|]. cbn [dump_lim]. destruct (among root dumped) eqn:A.
  - apply among_iff in A. exists []. rewrite app_nil_r. split; [reflexivity|]. split; [exact N|].
    split; [intros ? [<-|[]]; exact A|]. split; intros ? ? ? ? [] || intros ? [].
  - apply among_not in A. destruct (nth_error h root) as [nd|] eqn:Hr.
    2: { apply nth_error_None in Hr. lia. }
    destruct (dump_all_ok limit (n_trans nd) (dumped ++ [root])) as [new [-> [N1 [I1 [C1 L1]]]]].
    + apply NoDup_app_intro; [exact N|repeat constructor; auto|]. intros x X [<-|[]]. now apply A.
    + intros j d Hj Nd. apply in_map_iff in Hj as [[t j'] [Q Hj]]. cbn in Q; subst j'.
      apply IH; [eapply R; eauto| |exact Nd]. pose proof (M _ _ _ _ Hr Hj). lia.
    + cbn [bind fst snd]. rewrite <- app_assoc in *. cbn [app] in *. exists (root :: new). split.
      * unfold blocks; cbn [flat_map]. now rewrite Hr.
      * split; [exact N1|]. split; [intros x [<-|[]]; apply in_or_app; right; now left|]. split.
        -- intros i nd' t j [<-|X1] X2 X3.
           ++ assert (nd' = nd) by congruence; subst nd'. right. apply I1. now apply (in_map snd _ (t, j)).
           ++ destruct (C1 i nd' t j X1 X2 X3) as [Y|Y]; [left; now right|now right].
        -- intros i [<-|X]; [exact L|now apply L1].
Qed.
Lemma said_trans c (tr : dict T nat) r :
  said c (map (fun e => DumpTransition (fst e) (snd e)) tr ++ r) = map (fun e => DotEdge c (fst e) (snd e)) tr ++ said c r.
Proof. induction tr as [|e tr IH]; [reflexivity|]. cbn. now rewrite IH. Qed.
Lemma said_node c i (nd : node T) r : said c (node_dump i nd ++ r) = node_dot i nd ++ said i r.
Proof.
  unfold node_dump, node_dot. cbn [app said]. rewrite <- app_assoc. f_equal.
  destruct (n_trans nd) as [|e tr] eqn:Q; [reflexivity|]. now rewrite said_trans.
Qed.
Lemma said_blocks l : forall c, said c (blocks l) = dots h l.
Proof.
  induction l as [|i l IH]; intros c; [reflexivity|]. unfold blocks, dots in *; cbn [flat_map].
  destruct (nth_error h i); [rewrite said_node, IH; reflexivity|apply IH].
Qed.
Lemma nodes_blocks l : (forall i, In i l -> i < length h) -> dumped_nodes (blocks l) = l.
Proof.
  induction l as [|i l IH]; intros L; [reflexivity|]. unfold blocks, dumped_nodes in *; cbn [flat_map].
  destruct (nth_error h i) as [nd|] eqn:Hi.
  - rewrite flat_map_app, IH by (intros; apply L; now right). unfold node_dump. cbn [flat_map].
    assert (Z : forall tr : dict T nat, flat_map (fun l => match l with DumpNode i _ _ => [i] | _ => [] end)
      (map (fun e => DumpTransition (fst e) (snd e)) tr) = []) by (induction tr; auto).
    destruct (n_trans nd) as [|e tr]; [reflexivity|]. rewrite Z. reflexivity.
  - apply nth_error_None in Hi. specialize (L i (or_introl eq_refl)). lia.
Qed.
End Loops.

Section Read.
Variables (W : nat -> list T) (s : list T) (h : heap T).
Hypothesis HA : AInv W s h.
Notation n := (length h).

Lemma a_ranged : ranged h.
Proof.
  intros i nd t j Hi Ht. destruct (ai_node _ _ _ HA _ _ Hi) as [_ _ _ K4 _ K6]. apply In_dget in Ht; [|exact K4].
  specialize (K6 t). rewrite Ht in K6. apply K6.
Qed.
Lemma a_longer i nd t j : nth_error h i = Some nd -> In (t, j) (n_trans nd) -> length s - length (W j) < length s - length (W i).
Proof.
  intros Hi Ht. pose proof (a_ranged _ _ _ _ Hi Ht) as Hj. destruct (ai_node _ _ _ HA _ _ Hi) as [_ _ _ K4 _ K6].
  apply In_dget in Ht; [|exact K4]. specialize (K6 t). rewrite Ht in K6. destruct K6 as [_ [Ks _]].
  apply suf_length in Ks. rewrite app_length in Ks; cbn in Ks. pose proof (a_len W s h HA j Hj). lia.
Qed.
Lemma at_unique i j u : at_word W s h i u -> at_word W s h j u -> i = j.
Proof.
  intros [Hi [_ Ei]] [Hj [_ Ej]]. apply (ai_inj _ _ _ HA i j Hi Hj).
  apply (Canon_uniq s); [apply (a_canon W s h HA i Hi)|apply (a_canon W s h HA j Hj)|].
  eapply eqv_trans; [apply eqv_sym, Ei|exact Ej].
Qed.
Lemma closed_all done : In 0 done -> closed h done [] -> (forall i, In i done -> i < n) -> forall i, i < n -> In i done.
Proof.
  intros H0 C L i Hi.
  assert (A : forall u, Sub s u -> exists j, In j done /\ at_word W s h j u).
  { induction u as [|a u IH] using rev_ind; intros Hs.
    - exists 0. split; [exact H0|apply (at_root W s h HA)].
    - destruct (IH (Sub_snoc _ _ _ Hs)) as [j [Hj Ha]]. destruct (idx_node h j (L j Hj)) as [nd Hn].
      pose proof (at_step W s h HA j u nd a Ha Hn) as K. destruct (dget (n_trans nd) a) as [k|] eqn:Hk; [|now destruct K].
      exists k. split; [|exact K]. destruct (C j nd a k Hj Hn) as [X|[]]; [|exact X]. now apply dget_In. }
  destruct (A (W i)) as [j [Hj Ha]]; [apply (a_canon W s h HA i Hi)|].
  now rewrite (at_unique i j (W i) (at_self W s h i Hi) Ha).
Qed.

Variable l : list nat.
Hypothesis Hl : forall i, In i l <-> i < n.
Hypothesis Nl : NoDup l.
Notation lines := (dots h l).

Lemma edge_iff i t j : In (DotEdge i t j) lines <-> exists nd, nth_error h i = Some nd /\ dget (n_trans nd) t = Some j.
Proof.
  unfold dots. rewrite in_flat_map. split.
  - intros [c [Hc H]]. destruct (nth_error h c) as [nd|] eqn:Hn; [|destruct H]. unfold node_dot in H. apply in_app_or in H as [H|H].
    + destruct (n_term nd); [destruct H as [H|[]]; discriminate|destruct H].
    + apply in_map_iff in H as [[t' j'] [Q H]]. cbn in Q. injection Q as -> -> ->. exists nd. split; [exact Hn|].
      apply In_dget; [apply (ai_node _ _ _ HA _ _ Hn)|exact H].
  - intros [nd [Hn H]]. exists i. split; [apply Hl; eapply node_idx; eauto|]. rewrite Hn. apply in_or_app. right.
    apply in_map_iff. exists (t, j). split; [reflexivity|now apply dget_In].
Qed.
Lemma red_iff i : In (DotRed i) lines <-> exists nd, nth_error h i = Some nd /\ n_term nd = true.
Proof.
  unfold dots. rewrite in_flat_map. split.
  - intros [c [Hc H]]. destruct (nth_error h c) as [nd|] eqn:Hn; [|destruct H]. unfold node_dot in H. apply in_app_or in H as [H|H].
    + destruct (n_term nd) eqn:Ht; [|destruct H]. destruct H as [H|[]]. injection H as ->. eauto.
    + apply in_map_iff in H as [[t' j'] [Q H]]. discriminate.
  - intros [nd [Hn H]]. exists i. split; [apply Hl; eapply node_idx; eauto|]. rewrite Hn. apply in_or_app. left. rewrite H. now left.
Qed.
Lemma walk_at i w j : walk lines i w j -> forall u, at_word W s h i u -> at_word W s h j (u ++ w).
Proof.
  induction 1 as [i|i t k w j H1 H2 IH]; intros u A; [now rewrite app_nil_r|].
  apply edge_iff in H1 as [nd [Hn Ht]]. pose proof (at_step W s h HA i u nd t A Hn) as K. rewrite Ht in K.
  specialize (IH _ K). now rewrite <- app_assoc in IH.
Qed.
Lemma Sub_app u w : Sub s (u ++ w) -> Sub s u.
Proof.
  induction w as [|a w IH] using rev_ind; intros H; [now rewrite app_nil_r in H|]. rewrite app_assoc in H. apply Sub_snoc in H. auto.
Qed.
Lemma walk_exists w : forall i u, at_word W s h i u -> Sub s (u ++ w) -> exists j, walk lines i w j.
Proof.
  induction w as [|a w IH]; intros i u A Hs; [exists i; constructor|].
  destruct (idx_node h i (proj1 A)) as [nd Hn]. pose proof (at_step W s h HA i u nd a A Hn) as K.
  change (a :: w) with ([a] ++ w) in Hs. rewrite app_assoc in Hs.
  destruct (dget (n_trans nd) a) as [k|] eqn:Hk; [|exfalso; apply K; eapply Sub_app; eauto].
  destruct (IH k (u ++ [a]) K Hs) as [j Hj]. exists j. econstructor; [|exact Hj]. apply edge_iff. eauto.
Qed.
Lemma Sub_occurs w : Sub s w <-> exists p, occurs_at s w p.
Proof.
  split.
  - intros [e He]. exists (e - length w). apply occurs_Occ. pose proof (Occ_le _ _ _ He).
    now replace (e - length w + length w) with e by lia.
  - intros [p Hp]. apply occurs_Occ in Hp. eexists; eauto.
Qed.
(** reading on to the end of the text *)
Lemma accepted_at i u w : at_word W s h i u -> (accepted lines i w <-> suf (u ++ w) s).
Proof.
  intros A. split.
  - intros [j [Hw Hr]]. pose proof (walk_at i w j Hw u A) as [Hj [_ Ej]]. apply red_iff in Hr as [nd [Hn Ht]].
    apply (ai_term _ _ _ HA _ _ Hn) in Ht. assert (Ho : Occ s (W j) (length s)).
    { eapply Occ_suf; [exact Ht|apply Occ_full]. }
    apply Ej in Ho. destruct Ho as [_ Ho]. now rewrite firstn_all in Ho.
  - intros Hs. destruct (walk_exists w i u A) as [j Hw]; [now apply Sub_of_suf|]. exists j. split; [exact Hw|].
    pose proof (walk_at i w j Hw u A) as [Hj [_ Ej]]. apply red_iff. destruct (idx_node h j Hj) as [nd Hn]. exists nd. split; [exact Hn|].
    apply (ai_term _ _ _ HA _ _ Hn). assert (Ho : Occ s (u ++ w) (length s)).
    { eapply Occ_suf; [exact Hs|apply Occ_full]. }
    apply Ej in Ho. destruct Ho as [_ Ho]. now rewrite firstn_all in Ho.
Qed.
Lemma end_iff u e : e <= length s -> (suf (u ++ skipn e s) s <-> Occ s u e).
Proof.
  intros L. split.
  - intros [x Hx]. split; [exact L|]. exists x. rewrite <- (firstn_skipn e s) in Hx at 1. rewrite app_assoc in Hx.
    now apply app_inv_tail in Hx.
  - intros [_ [x Hx]]. exists x. rewrite app_assoc, <- Hx. symmetry. apply firstn_skipn.
Qed.
Lemma node_dot_once i nd : nth_error h i = Some nd -> NoDup (node_dot i nd).
Proof.
  intros Hn. pose proof (ok_keys _ _ _ _ _ (ai_node _ _ _ HA _ _ Hn)) as N. unfold node_dot. apply NoDup_app_intro.
  - destruct (n_term nd); repeat constructor; auto.
  - unfold dkeys in N. revert N. induction (n_trans nd) as [|[t j] tr IH]; cbn [map]; intros N; [constructor|].
    inversion N as [|? ? N1 N2]; subst. constructor; [|now apply IH]. intros C. apply in_map_iff in C as [[t' j'] [Q C]].
    cbn in Q. injection Q as -> ->. apply N1. now apply (in_map fst _ (t, j)).
  - intros x X1 X2. destruct (n_term nd); [|destruct X1]. destruct X1 as [<-|[]]. apply in_map_iff in X2 as [? [Q _]]. discriminate.
Qed.
Lemma node_dot_id i (nd : node T) x : In x (node_dot i nd) -> match x with DotRed c => c = i | DotEdge c _ _ => c = i end.
Proof.
  unfold node_dot. intros H. apply in_app_or in H as [H|H].
  - destruct (n_term nd); [|destruct H]. now destruct H as [<-|[]].
  - apply in_map_iff in H as [? [<- _]]. reflexivity.
Qed.
Lemma dots_once k : NoDup k -> NoDup (dots h k).
Proof.
  induction 1 as [|i k Hi Hk IH]; [constructor|]. unfold dots; cbn [flat_map]. fold (dots h k).
  destruct (nth_error h i) as [nd|] eqn:Hn; [|exact IH]. apply NoDup_app_intro; [now apply node_dot_once|exact IH|].
  intros x X1 X2. apply node_dot_id in X1. apply in_flat_map in X2 as [c [Hc X2]].
  destruct (nth_error h c) as [nd'|]; [|destruct X2]. apply node_dot_id in X2. destruct x; congruence.
Qed.
Theorem lines_ok : minimal_automaton s lines.
Proof.
  pose proof (at_root W s h HA) as A0. constructor.
  - now apply dots_once.
  - intros i t j j' H1 H2. apply edge_iff in H1 as [nd [Hn H1]]. apply edge_iff in H2 as [nd' [Hn' H2]]. congruence.
  - intros i Hi. assert (Li : i < n).
    { destruct Hi as [Hi|[t [j Hi]]]; [apply red_iff in Hi as [nd [Hn _]]|apply edge_iff in Hi as [nd [Hn _]]]; eapply node_idx; eauto. }
    exists (W i). destruct (walk_exists (W i) 0 [] A0) as [j Hj]; [apply (a_canon W s h HA i Li)|].
    pose proof (walk_at _ _ _ Hj _ A0) as A. cbn in A.
    rewrite (at_unique i j (W i) (at_self W s h i Li) A) at 2. exact Hj.
  - intros w. rewrite <- Sub_occurs. split.
    + intros [j Hj]. pose proof (walk_at _ _ _ Hj _ A0) as A. exact (at_Sub W s h HA _ _ A).
    + intros Hs. apply (walk_exists w 0 [] A0 Hs).
  - intros w. rewrite (accepted_at 0 [] w A0), suffixes_iff. reflexivity.
  - intros u v i j Hu Hv H. pose proof (walk_at _ _ _ Hu _ A0) as Au. pose proof (walk_at _ _ _ Hv _ A0) as Av. cbn in Au, Av.
    apply (ai_inj _ _ _ HA i j (proj1 Au) (proj1 Av)).
    apply (Canon_uniq s); [apply (a_canon W s h HA i (proj1 Au))|apply (a_canon W s h HA j (proj1 Av))|].
    eapply eqv_trans; [apply eqv_sym, Au|]. eapply eqv_trans; [|apply Av].
    intros e. split; intros X; assert (L := Occ_bound _ _ _ X); apply (end_iff _ _ L) in X; apply (end_iff _ _ L).
    + apply (accepted_at j v _ Av). apply H. now apply (accepted_at i u _ Au).
    + apply (accepted_at i u _ Au). apply H. now apply (accepted_at j v _ Av).
Qed.
Lemma lengths_ok i nd : nth_error h i = Some nd ->
  (exists w, walk lines 0 w i /\ length w = n_len nd) /\ (forall w, walk lines 0 w i -> length w <= n_len nd).
Proof.
  intros Hn. pose proof (at_root W s h HA) as A0. assert (Li : i < n) by (eapply node_idx; eauto).
  destruct (ai_node _ _ _ HA _ _ Hn) as [K1 _ _ _ _ _]. rewrite K1. split.
  - exists (W i). split; [|reflexivity]. destruct (walk_exists (W i) 0 [] A0) as [j Hj]; [apply (a_canon W s h HA i Li)|].
    pose proof (walk_at _ _ _ Hj _ A0) as A. cbn in A.
    rewrite (at_unique i j (W i) (at_self W s h i Li) A) at 2. exact Hj.
  - intros w Hw. pose proof (walk_at _ _ _ Hw _ A0) as [_ [A _]]. cbn in A. now apply suf_length.
Qed.
End Read.

Theorem dot_dump_ok s : exists h lines, build s = Some h /\ dot_dump h = Some lines /\ minimal_automaton s lines.
Proof.
  destruct (build_ok s) as [W [h [HB [HA HS]]]]. exists h. destruct (ai_root _ _ _ HA) as [H0 _].
  destruct (dot_loop_ok h (a_ranged W s h HA) (S (list_sum (map (fun nd => length (n_trans nd)) h))) [0] [])
    as [l [H1 [N [_ [I [C L]]]]]].
  - intros i [<-|[]]; exact H0.
  - constructor.
  - intros ? ? ? ? [].
  - rewrite rest_nil. cbn. lia.
  - exists (dots h l). split; [exact HB|]. split; [exact H1|]. apply (lines_ok W s h HA); [|exact N].
    intros i. split; [intros Hi; destruct (L i Hi) as [[]|X]; exact X|].
    apply (closed_all W s h HA); [apply I; now left|exact C|]. intros j Hj. destruct (L j Hj) as [[]|X]; exact X.
Qed.
Theorem dump_ok s limit : length s < limit -> exists h lines, build s = Some h /\ dump limit h = Ok lines /\
  Permutation (dumped_nodes lines) (seq 0 (length h)) /\ minimal_automaton s (said 0 lines) /\ true_lengths lines.
Proof.
  intros Hlim. destruct (build_ok s) as [W [h [HB [HA HS]]]]. exists h. destruct (ai_root _ _ _ HA) as [H0 W0].
  destruct (dump_lim_ok h (a_ranged W s h HA) (fun i => length s - length (W i)) (a_longer W s h HA) limit 0 [] H0)
    as [new [H1 [N [I [C L]]]]]; [lia|constructor|]. cbn [app] in *.
  assert (Hl : forall i, In i new <-> i < length h).
  { intros i. split; [apply L|]. apply (closed_all W s h HA); [apply I; now left| |exact L].
    intros a nd t j X1 X2 X3. destruct (C a nd t j X1 X2 X3); auto. }
  exists (blocks h new). unfold dump. rewrite H1. cbn [bind snd]. split; [exact HB|]. split; [reflexivity|]. split; [|split].
  - rewrite (nodes_blocks h new L). apply NoDup_Permutation; [exact N|apply seq_NoDup|]. intros i. rewrite Hl, in_seq. lia.
  - rewrite said_blocks. now apply (lines_ok W s h HA).
  - unfold true_lengths. rewrite said_blocks. intros i len b Hi. apply in_flat_map in Hi as [j [_ Hi]].
    destruct (nth_error h j) as [nd|] eqn:Hn; [|destruct Hi]. unfold node_dump in Hi. destruct Hi as [[= <- <- _]|Hi].
    + eapply (lengths_ok W s h HA); eauto.
    + destruct (n_trans nd); cbn in Hi; [destruct Hi as [X|[]]; discriminate|].
      destruct Hi as [X|Hi]; [discriminate|]. apply in_map_iff in Hi as [? [X _]]; discriminate.
Qed.
End P.
