(** Every version is stored as a diff from a later version of its own line. *)
From Coq Require Import ZArith Lia.
From Verif Require Import Base Changesets Serialize Tokenizers SpecTokenizers Tree SpecTree TreeProofs TreeExact
  Versions SpecVersions SpecLineage VersionsInv VersionsProofs VersionsFrame DbTree DbTreeProofs SpecDb DbVersions.
Local Open Scope nat_scope.

Section Lines.
Context {K : Type} {E : Teq K} {O : TeqOk K}.
Implicit Type h : list (adding K).

Lemma built_on_snoc h a t1 t2 : built_on h t1 t2 -> built_on (h ++ [a]) t1 t2.
Proof. intros (pre & b & post & -> & H). exists pre, b, (post ++ [a]). split; [now rewrite <- app_assoc|exact H]. Qed.
Lemma later_snoc h a t1 t2 : later h t1 t2 -> later (h ++ [a]) t1 t2.
Proof.
  induction 1 as [t1 t2 H|t1 t2 t3 H _ IH]; [apply later_one|eapply later_more]; eauto using built_on_snoc.
Qed.
Lemma later_trans h t1 t2 t3 : later h t1 t2 -> later h t2 t3 -> later h t1 t3.
Proof. induction 1 as [t1 t2 H|t1 t2 t3' H _ IH]; intros L; eapply later_more; eauto. Qed.
Lemma built_on_last h t b x : is_head h x -> built_on (h ++ [(t, b, Some x)]) x t.
Proof. intros H. exists h, b, []. auto. Qed.

Lemma nodup_split {A} (l1 l2 l1' l2' : list A) z : NoDup (l1 ++ z :: l2) -> l1 ++ z :: l2 = l1' ++ z :: l2' -> l1 = l1' /\ l2 = l2'.
Proof.
  revert l1'. induction l1 as [|y l1 IH]; intros [|y' l1'] N H; cbn in *.
  - now injection H.
  - injection H as <- H. inversion N as [|? ? N1 _]; subst. exfalso; apply N1, in_or_app; right; now left.
  - injection H as -> H. inversion N as [|? ? N1 _]; subst. exfalso; apply N1, in_or_app; right; now left.
  - injection H as <- H. inversion N as [|? ? _ N2]; subst. destruct (IH l1' N2 H) as [-> ->]. auto.
Qed.
Lemma NoDup_front {A} (l l' : list A) : NoDup (l ++ l') -> NoDup l.
Proof.
  induction l as [|x l IH]; intros N; [constructor|]. inversion N as [|? ? N1 N2]; subst.
  constructor; [|auto]. intros Hx; apply N1, in_or_app; now left.
Qed.
(** a version is the base of at most one add that succeeds *)
Lemma one_line h t1 t2 t3 : NoDup (map tag_of h) -> built_on h t1 t2 -> built_on h t1 t3 -> t2 = t3.
Proof.
  assert (W : forall (h : list (adding K)) pre b2 post pre' b3 post' t1 t2 t3, NoDup (map tag_of h) ->
    h = pre ++ (t2, b2, Some t1) :: post -> h = pre' ++ (t3, b3, Some t1) :: post' ->
    is_head pre t1 -> is_head pre' t1 -> length pre < length pre' -> False).
  { clear. intros h pre b2 post pre' b3 post' t1 t2 t3 N H2 H3 Hh Hh' L.
    assert (Q : exists mid, pre' = pre ++ (t2, b2, Some t1) :: mid).
    { rewrite H2 in H3. clear -H3 L. revert pre' H3 L. induction pre as [|x pre IH]; intros [|y pre'] H3 L; cbn in *; try lia.
      - injection H3 as <- H3. now exists pre'.
      - injection H3 as <- H3. destruct (IH pre' H3 ltac:(lia)) as [mid ->]. now exists mid. }
    destruct Q as [mid Q]. destruct Hh as (a & b & base & r & -> & _).
    destruct Hh' as (a' & b' & base' & r' & Q' & Nr).
    assert (N' : NoDup (map tag_of pre')).
    { rewrite H3, map_app in N. exact (NoDup_front _ _ N). }
    assert (E1 : map tag_of pre' = map tag_of a ++ t1 :: map tag_of (r ++ (t2, b2, Some t1) :: mid)).
    { rewrite Q, <- app_assoc, map_app. reflexivity. }
    assert (E2 : map tag_of pre' = map tag_of a' ++ t1 :: map tag_of r').
    { rewrite Q', map_app. reflexivity. }
    rewrite E1 in N'. rewrite E1 in E2. destruct (nodup_split _ _ _ _ _ N' E2) as [Ea _].
    apply (f_equal (@length K)) in Ea. rewrite !map_length in Ea.
    rewrite Q in Q'. rewrite <- app_assoc in Q'. cbn [app] in Q'.
    assert (Er : r' = r ++ (t2, b2, Some t1) :: mid).
    { clear -Q' Ea. revert a' Q' Ea. induction a as [|x a IH]; intros [|y a'] Q' Ea; cbn in *; try discriminate.
      - injection Q'. intros; now subst.
      - injection Q' as _ Q'. eapply IH; eauto. }
    apply Nr. rewrite Er, map_app, in_app_iff. right; now left. }
  intros N (pre & b2 & post & H2 & Hh) (pre' & b3 & post' & H3 & Hh').
  destruct (lt_eq_lt_dec (length pre) (length pre')) as [[L|L]|L].
  - exfalso. eapply (W h pre b2 post pre' b3 post'); eauto.
  - assert (Q : (t2, b2, Some t1) = (t3, b3, Some t1)).
    { rewrite H2 in H3. clear -H3 L. revert pre' H3 L. induction pre as [|x pre IH]; intros [|y pre'] H3 L; cbn in *; try discriminate.
      - injection H3. intros; now subst.
      - injection H3 as _ H3. eapply IH; eauto. }
    now injection Q.
  - exfalso. eapply (W h pre' b3 post' pre b2 post); eauto.
Qed.
Lemma head_no_base h r x : NoDup (map tag_of h) -> is_head h r -> built_on h r x -> False.
Proof.
  intros N (a & b & base & post & Hh & Np) (pre & b2 & post2 & H2 & (a' & b' & base' & post' & -> & _)).
  rewrite <- app_assoc in H2. cbn [app] in H2.
  assert (E1 : map tag_of h = map tag_of a ++ r :: map tag_of post) by (rewrite Hh, map_app; reflexivity).
  assert (E2 : map tag_of h = map tag_of a' ++ r :: map tag_of (post' ++ (x, b2, Some r) :: post2)).
  { rewrite H2, map_app; reflexivity. }
  rewrite E1 in N. rewrite E1 in E2. destruct (nodup_split _ _ _ _ _ N E2) as [Ea _].
  apply (f_equal (@length K)) in Ea. rewrite !map_length in Ea. rewrite Hh in H2.
  assert (Er : post = post' ++ (x, b2, Some r) :: post2).
  { clear -H2 Ea. revert a' H2 Ea. induction a as [|y a IH]; intros [|y' a'] H2 Ea; cbn in *; try discriminate.
    - injection H2. intros; now subst.
    - injection H2 as _ H2. eapply IH; eauto. }
  apply Np. rewrite Er, map_app, in_app_iff. right; now left.
Qed.
Lemma head_no_later h r x : NoDup (map tag_of h) -> is_head h r -> later h r x -> False.
Proof. intros N Hr L. destruct L as [t1 t2 B|t1 t2 t3 B _]; exact (head_no_base h t1 t2 N Hr B). Qed.
(** so a line has one head *)
Lemma one_head h t r : NoDup (map tag_of h) -> later h t r -> is_head h r ->
  forall r', later h t r' -> is_head h r' -> r = r'.
Proof.
  intros N L Hr. induction L as [t r H|t t2 r H L IH]; intros r' L' Hr'; inversion L' as [? ? H'|? t2' ? H' L2']; subst.
  - eapply one_line; eauto.
  - assert (r = t2') by (eapply one_line; eauto). subst t2'. exfalso.
    exact (head_no_later h r r' N Hr L2').
  - assert (t2 = r') by (eapply one_line; eauto). subst t2. exfalso.
    exact (head_no_later h r' r N Hr' L).
  - assert (t2 = t2') by (eapply one_line; eauto). subst t2'. now apply IH.
Qed.
End Lines.

Section H.
Context {K : Type} {E : Teq K} {O : TeqOk K}.
Variable re_w : Z -> bool.
Variable tk : tkind.
Variables HS DS : store K.
Variable TR : tree_impl K.
Variable HL : store_law HS.
Variable DL : store_law DS.
Variable TL : tree_law TR.
Notation run := (run re_w tk HS DS TR).
Notation hist_inv := (hist_inv re_w tk HS DS TR HL DL TL).
Implicit Type h : list (adding K).

Lemma down_later h s : (forall c q, child_of s c q -> later h c q) ->
  forall t p, down s t p -> last p t = t \/ later h (last p t) t.
Proof.
  intros Hc t p H. induction H as [t H|t c p C D IH]; [now left|]. right.
  destruct (down_cons _ _ _ D) as [p' ->].
  assert (L : last (t :: c :: p') t = last (c :: p') c)
    by (change (last (t :: c :: p') t) with (last (c :: p') t); apply last_cons_any).
  rewrite L. destruct IH as [->|IH]; [now apply Hc|]. eapply later_trans; [exact IH|now apply Hc].
Qed.
Lemma lineage_inv h : tk <> KLine -> fresh tk h ->
  exists s, hist_inv h (run v_empty h) s /\ forall c q, child_of s c q -> later h c q.
Proof.
  intros Hk. induction h as [|a h IH] using rev_ind; intros F.
  - exists []. split; [apply hist_nil|]. intros c q [n [H _]]; discriminate.
  - destruct (fresh_snoc _ _ _ F) as [F' _]. destruct (IH F') as [s [I L]].
    rewrite run_snoc. destruct (hist_step re_w tk HS DS TR HL DL TL h _ s a I F (or_introl Hk)) as [[s' [I' Hch]] _].
    exists s'. split; [exact I'|]. intros c q Hc.
    destruct Hch as [[_ Hch]|(x & p & Hx & Hh & Hw & Hch)].
    + apply later_snoc, L, Hch, Hc.
    + assert (B : later (h ++ [a]) x (tag_of a)).
      { apply later_one. destruct a as [[t b] base]. cbn in *. subst base. now apply built_on_last. }
      apply Hch in Hc as [[-> [->| ->]]|[_ [_ Hc]]]; [exact B| |now apply later_snoc, L].
      destruct (down_later h s L x p (proj1 Hw)) as [->|Q]; [exact B|].
      eapply later_trans; [apply later_snoc, Q|exact B].
Qed.

(** what is stored for a version, and of which other it is a diff *)
Lemma stored_from h : tk <> KLine -> fresh tk h ->
  forall t b base, In (t, b, base) h -> ~ is_head h t ->
  exists q bq baseq items d, later h t q /\ In (q, bq, baseq) h /\ storable tk bq /\ storable tk b /\
    make_changeset re_w tk bq b = Ok items /\ serialize_changeset items = Ok d /\
    s_get DS (diffs (run v_empty h)) t = Ok d.
Proof.
  intros Hk F t b base Hin Hh. set (v := run v_empty h).
  destruct (lineage_inv h Hk F) as [s [I L]]. fold v in I.
  pose proof (In_added _ _ _ _ Hin) as Ha. pose proof (h_core _ _ _ _ _ _ _ _ _ _ _ I) as C.
  destruct (inv_up re_w tk HS DS TR HL DL TL h _ s t I Ha) as [l Hl].
  destruct (dget s t) as [nd|] eqn:Hn; [|inversion Hl; congruence].
  destruct (parent nd) as [q|] eqn:Hp; [|exfalso; apply Hh; exact (proj1 (h_head _ _ _ _ _ _ _ _ _ _ _ I t nd Hn) Hp)].
  assert (Ct : child_of s t q) by (exists nd; auto).
  assert (Hq : dget s q <> None) by (apply (child_known re_w tk HS DS TR HL DL TL (V_of h) v s None t q); [apply I|exact Ct]).
  destruct (V_of h q) as [bq|] eqn:Bq; [|apply (c_dom _ _ _ _ _ _ _ _ _ _ _ _ C) in Bq; contradiction].
  pose proof (V_of_In h t b base (proj1 F) Hin) as Bt.
  destruct (c_diff _ _ _ _ _ _ _ _ _ _ _ _ C t nd q bq b Hn Hp Bq Bt) as [d [Hd [items [Hm Hs]]]]; [discriminate|].
  pose proof (c_ok _ _ _ _ _ _ _ _ _ _ _ _ C q bq Bq) as Sq. pose proof (c_ok _ _ _ _ _ _ _ _ _ _ _ _ C t b Bt) as St.
  apply V_of_some in Bq as [base' Bq].
  exists q, bq, base', items, d. split; [now apply L|]. do 5 (split; [assumption|]).
  rewrite (view_get _ DL). now rewrite Hd.
Qed.

(** the ways *)
Lemma up_later h s : (forall c q, child_of s c q -> later h c q) ->
  forall t l, up s t l -> forall l1 w u l2, l = l1 ++ w :: u :: l2 -> later h w u.
Proof.
  intros Hc t l U. induction U as [t n Hn Hp|t n q l Hn Hp U IH]; intros l1 w u l2 Hl.
  - destruct l1 as [|? [|? ?]]; discriminate.
  - destruct l1 as [|x l1].
    + injection Hl as <- Hl. assert (u = q) by (destruct (up_head _ _ _ U) as [l' ->]; now injection Hl).
      subst u. apply Hc. exists n; auto.
    + injection Hl as _ Hl. eapply IH; eauto.
Qed.
Theorem way_later h : tk <> KLine -> fresh tk h ->
  forall t p, added h t -> tr_path_to TR (tree (run v_empty h)) t = Ok (Some p) ->
  (forall l1 u w l2, p = l1 ++ u :: w :: l2 -> later h w u) /\
  (exists r l, p = r :: l /\ is_head h r /\ (r = t \/ later h t r)).
Proof.
  intros Hk F t p Ha Hp. destruct (lineage_inv h Hk F) as [s [I L]].
  destruct (inv_up re_w tk HS DS TR HL DL TL h _ s t I Ha) as [l Hl].
  pose proof (c_rep _ _ _ _ _ _ _ _ _ _ _ _ (h_core _ _ _ _ _ _ _ _ _ _ _ I)) as R.
  rewrite (rep_path _ TL _ s t l R Hl) in Hp. injection Hp as <-. split.
  - intros l1 u w l2 Hq. apply (f_equal (@rev K)) in Hq. rewrite rev_involutive, rev_app_distr in Hq.
    cbn [rev] in Hq. rewrite <- !app_assoc in Hq. cbn [app] in Hq. eapply up_later; eauto.
  - destruct (up_down _ _ _ Hl) as (r & n & Hr & Hpr & Hd & Hla & q & Hq). rewrite Hq in *.
    exists r, q. split; [reflexivity|]. split; [exact (proj1 (h_head _ _ _ _ _ _ _ _ _ _ _ I r n Hr) Hpr)|].
    rewrite <- Hla. destruct (down_later h s L r (r :: q) Hd) as [Q|Q]; auto.
Qed.
End H.
