(** Calls at the same time, from a history on. *)
From Coq Require Import ZArith Lia Permutation.
From Verif Require Import Base SpecSeq Changesets Serialize SpecSerialize
  Tokenizers SpecTokenizers TokenizersProofs TokenizersDiff Tree SpecTree TreeProofs
  Versions SpecVersions VersionsPatch VersionsInv VersionsProofs VersionsMore SpecLineage VersionsLineage
  Concurrent SpecConcurrent ConcurrentProofs.

Section H.
Context {K : Type} {E : Teq K} {O : TeqOk K}.
Variable re_w : Z -> bool.
Variable tk : tkind.
Variables HS DS : store K.
Variable TR : tree_impl K.
Variable HL : store_law HS.
Variable DL : store_law DS.
Variable TL : tree_law TR.
Notation run := (run re_w tk HS DS TR).
Notation hist_inv := (hist_inv re_w tk HS DS TR HL DL TL).
Notation get := (get re_w tk HS DS TR).
Notation add_result := (add_result re_w tk HS DS TR).
Notation start := (start re_w tk HS DS TR).
Implicit Type h : list (adding K).

Lemma hist_run h v s g : tk <> KLine -> hist_inv h v s -> fresh tk (h ++ g) -> exists s', hist_inv (h ++ g) (run v g) s'.
Proof.
  intros Hk I. induction g as [|a g IH] using rev_ind; intros F.
  - rewrite app_nil_r. eauto.
  - rewrite app_assoc in F. destruct (fresh_snoc _ _ _ F) as [F' _]. destruct (IH F') as [s' I'].
    rewrite run_snoc, app_assoc. destruct (hist_step re_w tk HS DS TR HL DL TL _ _ s' a I' F (or_introl Hk)) as [[s2 [I2 _]] _]. eauto.
Qed.

Lemma adds_In (calls : list (call (K := K))) a : In (Add a) calls <-> In a (adds_of calls).
Proof.
  unfold adds_of. rewrite in_flat_map. split.
  - intros H; exists (Add a); split; [exact H|now left].
  - intros [[a'|u] [H1 H2]]; cbn in H2; [destruct H2 as [->|[]]; exact H1|destruct H2].
Qed.
Lemma adds_one (calls : list (call (K := K))) : NoDup (map tag_of (adds_of calls)) -> forall i j a a',
  nth_error calls i = Some (Add a) -> nth_error calls j = Some (Add a') -> tag_of a = tag_of a' -> i = j.
Proof.
  induction calls as [|c calls IH]; intros N i j a a' Hi Hj Ht; [destruct i; discriminate|].
  assert (Tl : NoDup (map tag_of (adds_of calls))).
  { destruct c as [b|u]; [|exact N]. unfold adds_of in N; cbn in N. now inversion N. }
  assert (Hd : forall b k b', c = Add b -> nth_error calls k = Some (Add b') -> tag_of b = tag_of b' -> False).
  { intros b k b' -> Hk' He. unfold adds_of in N; cbn in N. apply NoDup_cons_iff in N as [N _]. apply N.
    rewrite He. apply in_map. apply (adds_In calls). eapply nth_error_In; eauto. }
  destruct i as [|i], j as [|j]; cbn in Hi, Hj; [reflexivity| | |].
  - exfalso. eapply Hd; [injection Hi as Hi; exact Hi|exact Hj|exact Ht].
  - exfalso. eapply Hd; [injection Hj as Hj; exact Hj|exact Hi|auto].
  - f_equal. eapply IH; eauto.
Qed.

(** whose line a tag is on *)
Definition owner (new : list (adding K)) (s : nodes K) (u : K) : K :=
  match find (fun a => teq (tag_of a) u) new with
  | Some a => match base_of a with Some x => x | None => u end
  | None => match m_path_to s u with Ok (Some (r :: _)) => r | _ => u end
  end.

Lemma owner_new new s a : NoDup (map tag_of new) -> In a new ->
  owner new s (tag_of a) = match base_of a with Some x => x | None => tag_of a end.
Proof.
  intros N H. unfold owner. destruct (find _ new) as [a'|] eqn:Hf.
  - apply find_some in Hf as [H1 H2]. destruct (teq_spec (tag_of a') (tag_of a)) as [He|]; [|discriminate].
    assert (a' = a); [|now subst]. clear - N H H1 He. induction new as [|c l IH]; [destruct H|].
    cbn in N. apply NoDup_cons_iff in N as [N1 N2]. destruct H as [->|H], H1 as [->|H1]; auto.
    + exfalso; apply N1. rewrite <- He. now apply in_map.
    + exfalso; apply N1. rewrite He. now apply in_map.
  - exfalso. apply (find_none _ _ Hf) in H. now rewrite teq_refl in H.
Qed.
Lemma owner_old new s u l : ~ In u (map tag_of new) -> up s u l -> exists r p, rev l = r :: p /\ owner new s u = r.
Proof.
  intros N U. unfold owner. destruct (find _ new) as [a'|] eqn:Hf.
  - apply find_some in Hf as [H1 H2]. destruct (teq_spec (tag_of a') u) as [He|]; [|discriminate].
    exfalso; apply N. rewrite <- He. now apply in_map.
  - rewrite (path_to_ok s u l U). destruct (up_down _ _ _ U) as (r & n & _ & _ & _ & _ & p & Hp). rewrite Hp. eauto.
Qed.

Theorem calls_ok h calls v s : tk <> KLine -> hist_inv h v s -> fresh tk (h ++ adds_of calls) -> separate h calls ->
  (forall c q, child_of s c q -> later h c q) ->
  forall v' ps, moves HS DS TR (v, map start calls) (v', ps) ->
  (forall i c r, nth_error calls i = Some c -> nth_error ps i = Some (Ret r) ->
    match c with Add _ => r = Ok Added | Get u => exists b base, In (u, b, base) h /\ r = Ok (Found (Some b)) end) /\
  (Forall (returned HS DS TR) ps -> exists done s', Permutation (adds_of calls) done /\ hist_inv (h ++ done) v' s').
Proof.
  intros Hk I F [Sh [So Sg]] Lat v' ps M.
  set (new := adds_of calls) in *. set (own := owner new s).
  assert (Nn : NoDup (map tag_of new)).
  { destruct F as [N _]. rewrite map_app in N. clear - N. induction (map tag_of h) as [|x l IH]; [exact N|].
    apply IH. now inversion N. }
  assert (Hb : forall x, In (Some x) (map base_of new) -> is_head h x).
  { intros x Hx. apply in_map_iff in Hx as [a [Ha Hin]]. apply (Sh a x); [now apply adds_In|exact Ha]. }
  assert (Old : forall u, added h u -> ~ In u (map tag_of new)).
  { intros u Hu C. apply in_map_iff in C as [a [<- Ha]]. exact (new_not_old tk h new F a Ha Hu). }
  assert (Up : forall u, added h u -> exists l, up s u l).
  { intros u Hu. apply (inv_up re_w tk HS DS TR HL DL TL h v s u I Hu). }
  assert (Ox : forall x, is_head h x -> own x = x).
  { intros x Hx. pose proof (is_head_added _ _ Hx) as Ha. destruct (Up x Ha) as [l Hl].
    destruct (owner_old new s x l (Old x Ha) Hl) as [r [p [Hr Hw]]]. unfold own. rewrite Hw.
    inversion Hl as [? n Hn Hp|? n q l' Hn Hp Hq]; subst; [cbn in Hr; congruence|].
    exfalso. apply (h_head _ _ _ _ _ _ _ _ _ _ _ I x n Hn) in Hx. congruence. }
  assert (own_some : forall t b x, In (t, b, Some x) new -> own t = x /\ own x = x).
  { intros t b x Ha. pose proof (owner_new new s _ Nn Ha) as Hw. cbn in Hw. split; [exact Hw|].
    apply Ox, Hb. apply (in_map base_of) in Ha; exact Ha. }
  assert (own_none : forall t b, In (t, b, None) new -> own t = t).
  { intros t b Ha. exact (owner_new new s _ Nn Ha). }
  assert (same_tag : forall a a', In a new -> In a' new -> tag_of a = tag_of a' -> a = a').
  { intros a a' Ha Ha' He. apply adds_In in Ha, Ha'. apply In_nth_error in Ha as [i Hi], Ha' as [j Hj].
    pose proof (adds_one calls Nn i j a a' Hi Hj He) as Hij. subst j. congruence. }
  assert (own_one : forall a a', In a new -> In a' new -> own (tag_of a) = own (tag_of a') -> a = a').
  { intros [[t b] base] [[t' b'] base'] Ha Ha' He. cbn [tag_of fst] in He.
    destruct base as [x|], base' as [x'|].
    - rewrite (proj1 (own_some _ _ _ Ha)), (proj1 (own_some _ _ _ Ha')) in He. subst x'.
      apply adds_In in Ha, Ha'. apply In_nth_error in Ha as [i Hi], Ha' as [j Hj].
      assert (i = j) by (eapply So; eauto; reflexivity). subst j. congruence.
    - rewrite (proj1 (own_some _ _ _ Ha)), (own_none _ _ Ha') in He. exfalso.
      apply (new_not_old tk h new F _ Ha'). cbn. rewrite <- He. apply is_head_added, Hb.
      apply (in_map base_of) in Ha; exact Ha.
    - rewrite (proj1 (own_some _ _ _ Ha')), (own_none _ _ Ha) in He. exfalso.
      apply (new_not_old tk h new F _ Ha). cbn. rewrite He. apply is_head_added, Hb.
      apply (in_map base_of) in Ha'; exact Ha'.
    - apply same_tag; auto. cbn. rewrite (own_none _ _ Ha), (own_none _ _ Ha') in He. exact He. }
  assert (calls_one : forall i j a, nth_error calls i = Some (Add a) -> nth_error calls j = Some (Add a) -> i = j).
  { intros i j a Hi Hj. eapply adds_one; eauto. }
  assert (calls_get : forall u, In (Get u) calls -> added h u /\ forall a, In a new -> own (tag_of a) <> own u).
  { intros u Hu. destruct (Sg u Hu) as [Ha Hs]. split; [exact Ha|]. intros [[t b] base] Hin He. cbn [tag_of fst] in He.
    destruct (Up u Ha) as [l Hl]. destruct (owner_old new s u l (Old u Ha) Hl) as [r [p [Hr Hw]]].
    destruct (up_down _ _ _ Hl) as (r' & n & Hn & Hp & Hd & Hla & q & Hq). assert (r' = r) by congruence. subst r'.
    assert (Hr1 : r = u \/ later h u r).
    { rewrite <- Hla. destruct (down_later h s Lat r (rev l) Hd) as [Q|Q]; auto. }
    unfold own in He at 2. rewrite Hw in He. destruct base as [x|].
    - rewrite (proj1 (own_some _ _ _ Hin)) in He. subst x.
      destruct (Hs (t, b, Some r) r) as [H1 H2]; [now apply adds_In|reflexivity|]. destruct Hr1; [congruence|contradiction].
    - rewrite (own_none _ _ Hin) in He. apply (new_not_old tk h new F _ Hin). cbn. rewrite He.
      pose proof (known_added _ _ _ _ _ _ _ _ h v s r I) as Hkn.
      destruct (V_of h r) eqn:HV.
      + destruct (V_of_some _ _ _ HV) as [bb Hbb]. now apply In_added in Hbb.
      + apply V_of_none in HV. apply Hkn in HV. congruence. }
  pose proof (h_core _ _ _ _ _ _ _ _ _ _ _ I) as C. pose proof (h_tidy _ _ _ _ _ _ _ _ _ _ _ I) as T.
  assert (HVo : forall u, added h u -> V h new u = V_of h u).
  { intros u Hu. destruct (added_In h u Hu) as [b [bb Hin]]. rewrite (V_old tk h new F _ _ _ Hin).
    symmetry. apply (V_of_In _ _ _ bb); [|exact Hin]. destruct F as [N _]. rewrite map_app in N. clear - N.
    revert N. induction h as [|x l IH]; intros N; [constructor|]. cbn in *. apply NoDup_cons_iff in N as [N1 N2].
    constructor; [intros Cx; apply N1, in_or_app; now left|now apply IH]. }
  assert (Kn : forall u n, dget s u = Some n -> added h u).
  { intros u n Hn. destruct (V_of h u) as [b|] eqn:HV.
    - destruct (V_of_some _ _ _ HV) as [bb Hbb]. now apply In_added in Hbb.
    - apply (c_dom _ _ _ _ _ _ _ _ _ _ _ _ C) in HV. congruence. }
  assert (TagOk : forall u, tag_ok re_w tk HS DS TR HL DL h new v s u).
  { intros u. unfold tag_ok. destruct (T u ltac:(discriminate)) as [T1 T2].
    destruct (dget s u) as [n|] eqn:Hn.
    - pose proof (Kn u n Hn) as Ha. destruct (parent n) as [q|] eqn:Hp.
      + split.
        * destruct (view HL (heads v) u) eqn:Hv; [|reflexivity]. destruct T1 as [m [Hm Hpm]]; congruence.
        * assert (Hc : child_of s u q) by (exists n; auto).
          pose proof (child_known re_w tk HS DS TR HL DL TL (V_of h) v s None u q C Hc) as Hq.
          destruct (dget s q) as [nq|] eqn:Hnq; [|congruence].
          pose proof (HVo u Ha) as Eu. pose proof (HVo q (Kn q nq Hnq)) as Eq.
          destruct (V_of h u) as [bu|] eqn:Bu; [|apply (c_dom _ _ _ _ _ _ _ _ _ _ _ _ C) in Bu; congruence].
          destruct (V_of h q) as [bq|] eqn:Bq; [|apply (c_dom _ _ _ _ _ _ _ _ _ _ _ _ C) in Bq; congruence].
          destruct (c_diff _ _ _ _ _ _ _ _ _ _ _ _ C u n q bq bu Hn Hp Bq Bu) as [d [Hd He]]; [discriminate|].
          exists d, bq, bu. auto.
      + split; [rewrite (HVo u Ha); now apply (c_head _ _ _ _ _ _ _ _ _ _ _ _ C u n)|].
        destruct (view DL (diffs v) u) eqn:Hv; [|reflexivity]. destruct T2 as [m [Hm Hpm]]; congruence.
    - split.
      + destruct (view HL (heads v) u) eqn:Hv; [|reflexivity]. destruct T1 as [m [Hm Hpm]]; congruence.
      + destruct (view DL (diffs v) u) eqn:Hv; [|reflexivity]. destruct T2 as [m [Hm Hpm]]; congruence. }
  assert (I0 : inv re_w tk HS DS TR HL DL TL h new own calls [] (v, map start calls) s).
  { split; [|split; [|split]]; cbn [fst snd].
    - split.
      + apply C.
      + apply C.
      + intros c q Hc. pose proof Hc as [n [Hn Hp]].
        pose proof (child_known re_w tk HS DS TR HL DL TL (V_of h) v s None c q C Hc) as Hq.
        destruct (dget s q) as [nq|] eqn:Hnq; [|congruence].
        destruct (Up q (Kn q nq Hnq)) as [lq Hlq].
        destruct (owner_old new s q lq (Old q (Kn q nq Hnq)) Hlq) as [r [p [Hr Hw]]].
        destruct (owner_old new s c (c :: lq) (Old c (Kn c n Hn))) as [r' [p' [Hr' Hw']]]; [eapply up_step; eauto|].
        cbn [rev] in Hr'. rewrite Hr in Hr'. cbn in Hr'. unfold own. rewrite Hw, Hw'. congruence.
      + intros a [].
      + rewrite app_nil_r. apply (h_keys _ _ _ _ _ _ _ _ _ _ _ I).
      + rewrite app_nil_r. apply (h_order _ _ _ _ _ _ _ _ _ _ _ I).
      + rewrite app_nil_r. apply (h_base _ _ _ _ _ _ _ _ _ _ _ I).
      + rewrite app_nil_r. apply (h_child _ _ _ _ _ _ _ _ _ _ _ I).
    - apply map_length.
    - intros o _ u _. split; [apply (h_head _ _ _ _ _ _ _ _ _ _ _ I)|auto].
    - intros i c pr Hc Hp. rewrite nth_error_map, Hc in Hp. injection Hp as <-.
      destruct c as [[[t b] base]|u]; cbn [thread].
      + assert (Hin : In (t, b, base) new) by (apply adds_In; eapply nth_error_In; eauto).
        apply ph0.
        * apply pview_none. apply (known_added _ _ _ _ _ _ _ _ h v s t I). exact (new_not_old tk h new F _ Hin).
        * intros u _. split; [|auto]. intros n Hn. rewrite (h_head _ _ _ _ _ _ _ _ _ _ _ I u n Hn).
          unfold Rb. split; [auto|]. intros [H| ->]; [exact H|]. exfalso.
          apply (new_not_old tk h new F _ Hin). exact (Kn _ _ Hn).
      + intros bu _. apply rd0. }
  destruct (inv_moves re_w tk HS DS TR HL DL TL h new own Hk F Hb own_some own_one calls (fun a => adds_In calls a) calls_one calls_get
    [] _ s _ I0 M) as [done [s' I']].
  split.
  - intros i c r Hc Hr. eapply (inv_answer re_w tk HS DS TR HL DL TL h new own F calls (fun a => adds_In calls a) calls_get); eauto.
  - intros Hall. destruct (inv_end re_w tk HS DS TR HL DL TL h new own F Hb own_some own_one calls (fun a => adds_In calls a) done (v', ps) s' I' Hall) as [P J].
    exists done, s'. auto.
Qed.

Lemma inv_serves h v s : tk <> KLine -> fresh tk h -> hist_inv h v s -> serves re_w tk HS DS TR h v.
Proof.
  intros Hk F I. split; [|split; [|split; [|split]]].
  - intros t b base Hin. split.
    + destruct (inv_up re_w tk HS DS TR HL DL TL h _ s t I (In_added _ _ _ _ Hin)) as [l Hl].
      apply (inv_get re_w tk HS DS TR HL DL TL h _ s t b base l I F Hin Hl); auto.
    + destruct (h_base _ _ _ _ _ _ _ _ _ _ _ I t b base Hin) as [n [Hn Hb]].
      rewrite (rep_base _ TL _ s t n); [congruence|apply I|exact Hn].
  - intros t Hn. apply (get_none re_w tk HS DS TR HL DL TL None (V_of h) _ s); [apply I|now apply V_of_none].
  - intros t. unfold contains. rewrite (rep_contains _ TL _ s t); [|apply I]. unfold dmem.
    pose proof (known_added _ _ _ _ _ _ _ _ h v s t I) as Hkn. destruct (V_of h t) eqn:HV.
    + destruct (V_of_some _ _ _ HV) as [bb Hbb]. apply In_added in Hbb.
      destruct (dget s t); [tauto|]. exfalso. apply (proj1 Hkn eq_refl). exact Hbb.
    + apply V_of_none in HV. rewrite (proj2 Hkn HV). split; [discriminate|contradiction].
  - intros t. rewrite (view_mem _ HL). rewrite <- (heads_view _ _ _ _ _ _ _ _ h v s t I).
    destruct (view HL (heads v) t); split; congruence.
  - intros a Fa Hb. destruct (hist_step re_w tk HS DS TR HL DL TL h v s a I Fa (or_introl Hk)) as [_ [H _]]. now apply H.
Qed.

Theorem together h calls : tk <> KLine -> fresh tk (h ++ adds_of calls) -> separate h calls ->
  forall v ps, moves HS DS TR (run v_empty h, map start calls) (v, ps) ->
  (forall i c r, nth_error calls i = Some c -> nth_error ps i = Some (Ret r) ->
    match c with Add _ => r = Ok Added | Get u => exists b base, In (u, b, base) h /\ r = Ok (Found (Some b)) end) /\
  (Forall (returned HS DS TR) ps -> exists order, Permutation (adds_of calls) order /\
    forall g, fresh tk (h ++ order ++ g) -> serves re_w tk HS DS TR (h ++ order ++ g) (run v g)).
Proof.
  intros Hk F S v ps M.
  assert (Fh : fresh tk h).
  { destruct F as [N FF]. apply Forall_app in FF as [F1 _]. split; [|exact F1]. rewrite map_app in N.
    now apply NoDup_front in N. }
  destruct (lineage_inv re_w tk HS DS TR HL DL TL h Hk Fh) as [s [I Lat]].
  destruct (calls_ok h calls _ s Hk I F S Lat v ps M) as [A B]. split; [exact A|].
  intros Hall. destruct (B Hall) as [order [s' [P J]]]. exists order; split; [exact P|].
  intros g Fg. rewrite app_assoc in Fg |- *. destruct (hist_run _ _ _ g Hk J Fg) as [s2 J2]. eapply inv_serves; eauto.
Qed.
End H.
