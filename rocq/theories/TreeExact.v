(** The stored heights and sizes are the true ones. *)
From Coq Require Import Lia Wf_nat.
From Verif Require Import Base Tree SpecTree TreeProofs.

Section X.
Context {K : Type} {E : Teq K} {O : TeqOk K}.
Implicit Type s : nodes K.

Lemma down_first s t l : down s t l -> exists l', l = t :: l'.
Proof. inversion 1; eauto. Qed.

Lemma last_cons {A} (x y d : A) l : last (x :: y :: l) d = last (y :: l) d.
Proof. reflexivity. Qed.
Lemma last_irrel {A} (x d d' : A) l : last (x :: l) d = last (x :: l) d'.
Proof. revert x; induction l as [|y l IH]; intros x; [reflexivity|]. rewrite !last_cons; apply IH. Qed.

(** going down from [t] to [d] is going up from [d] past [t] *)
Lemma down_up s t p : down s t p -> forall d l, last p t = d -> up s d l ->
  exists l1 lt, l = l1 ++ lt /\ up s t lt /\ length l1 + 1 = length p.
Proof.
  induction 1 as [t Ht|t c p Hc H IH]; intros d l Hd Hu.
  - cbn in Hd; subst d. exists [], l; auto.
  - destruct (down_first _ _ _ H) as [p' ->]. rewrite last_cons in Hd.
    rewrite (last_irrel c t c) in Hd.
    destruct (IH d l Hd Hu) as [l1 [lc [-> [Huc Hlen]]]].
    inversion Huc; subst.
    + destruct Hc as [n' [Hn' Hp']]; congruence.
    + destruct Hc as [n' [Hn' Hp']].
      assert (q = t) by congruence; subst q.
      exists (l1 ++ [c]), l. rewrite <- app_assoc; split; [reflexivity|]. split; [assumption|].
      rewrite app_length; cbn in *; lia.
Qed.

Lemma below_refl s t : dget s t <> None -> below s t t.
Proof. intros H; exists [t]; split; [now apply down_one|reflexivity]. Qed.
Lemma below_child s t c d : child_of s c t -> below s c d -> below s t d.
Proof.
  intros Hc [l [Hl Hd]]. exists (t :: l); split; [eapply down_step; eauto|].
  destruct (down_first _ _ _ Hl) as [l' ->]. rewrite last_cons. now rewrite (last_irrel c t c).
Qed.
Lemma below_inv s t d : below s t d -> d = t \/ exists c, child_of s c t /\ below s c d.
Proof.
  intros [l [Hl Hd]]; inversion Hl as [? Ht|? c l' Hc Hdn]; subst; [auto|].
  right; exists c; split; [exact Hc|]. exists l'; split; [exact Hdn|].
  destruct (down_first _ _ _ Hdn) as [l'' ->]. now rewrite last_cons, (last_irrel c c t).
Qed.
Lemma down_last_in s t l : down s t l -> dget s (last l t) <> None.
Proof.
  induction 1 as [t Ht|t c l Hc H IH]; [exact Ht|].
  destruct (down_first _ _ _ H) as [l' ->]. rewrite last_cons. now rewrite (last_irrel c t c).
Qed.

Lemma suffix_unique {A} (a b c d : list A) : a ++ b = c ++ d -> length b = length d -> b = d.
Proof.
  intros H L. assert (La : length a = length c).
  { apply (f_equal (@length A)) in H; rewrite !app_length in H; lia. }
  revert c H La; induction a as [|x a IH]; intros [|y c] H La; cbn in *; try discriminate; [exact H|].
  injection H as _ H; apply (IH c); auto.
Qed.

Lemma below_disjoint s t c c' d l : up s d l -> child_of s c t -> child_of s c' t ->
  below s c d -> below s c' d -> c = c'.
Proof.
  intros Hu [n [Hn Hp]] [n' [Hn' Hp']] [p [Hd El]] [p' [Hd' El']].
  destruct (down_up _ _ _ Hd d l El Hu) as [l1 [lc [-> [Uc _]]]].
  destruct (down_up _ _ _ Hd' d _ El' Hu) as [l2 [lc' [Heq [Uc' _]]]].
  inversion Uc as [|? ? q lt]; subst; [congruence|]. inversion Uc' as [|? ? q' lt']; subst; [congruence|].
  assert (q = t) by congruence; assert (q' = t) by congruence; subst q q'.
  assert (lt = lt') by (eapply up_fun; eauto). subst lt'.
  apply suffix_unique in Heq; [congruence|reflexivity].
Qed.
Lemma not_below_child s t c l : up s t l -> child_of s c t -> ~ below s c t.
Proof.
  intros Hu [n [Hn Hp]] [p [Hd El]].
  destruct (down_up _ _ _ Hd t l El Hu) as [l1 [lc [-> [Uc _]]]].
  destruct Uc as [c n' H1 H2|c n' q lt H1 H2 H3]; [congruence|].
  assert (q = t) by congruence; subst q.
  pose proof (up_fun _ _ _ H3 _ Hu) as C.
  apply (f_equal (@length K)) in C; rewrite app_length in C; cbn in C; lia.
Qed.

Lemma child_metrics_max s l h z : child_metrics s l = Ok (h, z) -> l <> [] ->
  exists c n, In c l /\ dget s c = Some n /\ height n = h.
Proof.
  revert h z; induction l as [|c l IH]; intros h z H Hne; [now destruct Hne|].
  cbn in H. destruct (dget s c) as [m|] eqn:Hc; [|discriminate].
  destruct (child_metrics s l) as [[h0 z0]|] eqn:Hl; [|discriminate]. cbn in H; injection H as <- <-.
  destruct l as [|c' l'].
  - cbn in Hl; injection Hl as <- <-. exists c, m; split; [now left|]. split; [exact Hc|]. lia.
  - destruct (IH h0 z0 eq_refl ltac:(discriminate)) as [d [n [Hd [Hn Hh]]]].
    destruct (Nat.max_spec (height m) h0) as [[_ ->]|[_ ->]].
    + exists d, n; split; [now right|auto].
    + exists c, m; split; [now left|auto].
Qed.

Theorem tree_ok_exact s : tree_ok s -> tree_exact s.
Proof.
  intros [[N [F C]] M]; split; [exact F|].
  assert (Main : forall k t n, dget s t = Some n -> height n <= k -> height_right s t n /\ size_right s t n).
  { induction k as [|k IH]; intros t n Hn Hk; destruct (M t n Hn) as [h [z [Hm [Hh Hz]]]]; [lia|].
    destruct (C t n Hn) as [Cn Cc].
    assert (Hsub : forall c m, In c (children n) -> dget s c = Some m -> height_right s c m /\ size_right s c m).
    { intros c m Hc Hcm. pose proof (child_metrics_bound _ _ _ _ Hm _ _ Hc Hcm).
      apply IH; [exact Hcm|lia]. }
    split; [split|].
    - destruct (children n) as [|c0 cs] eqn:Hcs.
      + cbn in Hm; injection Hm as <- <-. exists [t]; split; [apply down_one; congruence|cbn; lia].
      + destruct (child_metrics_max _ _ _ _ Hm ltac:(discriminate)) as [c [m [Hc [Hcm Hmax]]]].
        destruct (Hsub c m Hc Hcm) as [[[l [Hl Len]] _] _].
        exists (t :: l); split; [eapply down_step; [exact (proj1 (Cc c) Hc)|exact Hl]|cbn; lia].
    - intros l Hl. inversion Hl as [? Ht|? c l' Hc Hd]; subst; [cbn; lia|].
      pose proof Hc as [m [Hcm _]]. apply Cc in Hc.
      destruct (Hsub c m Hc Hcm) as [[_ Hup] _]. specialize (Hup l' Hd).
      pose proof (child_metrics_bound _ _ _ _ Hm _ _ Hc Hcm). cbn; lia.
    - assert (Hall : forall cs z', incl cs (children n) -> NoDup cs -> (exists h', child_metrics s cs = Ok (h', z')) ->
         exists l, NoDup l /\ (forall d, In d l <-> exists c, In c cs /\ below s c d) /\ length l = z').
      { induction cs as [|c cs IHc]; intros z' Hi Hnd [h' Hm'].
        - cbn in Hm'; injection Hm' as <- <-. exists []; split; [constructor|]. split; [|reflexivity].
          intros d; split; [intros []|intros [c [[] _]]].
        - cbn in Hm'. destruct (dget s c) as [m|] eqn:Hcm; [|discriminate].
          destruct (child_metrics s cs) as [[h0 z0]|] eqn:Hl; [|discriminate]. cbn in Hm'; injection Hm' as <- <-.
          inversion Hnd as [|? ? Hni Hnd']; subst.
          destruct (IHc z0) as [l [Dl [Il Ll]]]; [intros x Hx; apply Hi; now right|exact Hnd'|eauto|].
          destruct (Hsub c m (Hi c (or_introl eq_refl)) Hcm) as [_ [lc [Dc [Ic Lc]]]].
          exists (lc ++ l); split; [|split].
          + apply NoDup_app_intro; auto. intros d Hd Hd'. apply Ic in Hd. apply Il in Hd' as [c' [Hc' Hd']].
            apply Hni. destruct Hd as [p [Hp Hlast]]. 
            destruct (F d) as [ld Hud]; [rewrite <- Hlast; eapply down_last_in; eauto|].
            replace c with c'; [exact Hc'|].
            eapply (below_disjoint s t c' c d ld); [exact Hud| | |exact Hd'|exists p; auto];
              apply Cc, Hi; [now right|now left].
          + intros d; rewrite in_app_iff, Ic, Il. split.
            * intros [H|[c' [H H']]]; [exists c; split; [now left|exact H]|exists c'; split; [now right|exact H']].
            * intros [c' [[<-|H] H']]; [now left|right; eauto].
          + rewrite app_length; lia. }
      destruct (Hall (children n) z) as [l [Dl [Il Ll]]]; [apply incl_refl|exact Cn|eauto|].
      exists (t :: l); split; [|split].
      + constructor; [|exact Dl]. intros Ht; apply Il in Ht as [c [Hc Hb]].
        destruct (F t) as [lt Ht]; [congruence|]. apply Cc in Hc. now apply (not_below_child s t c lt).
      + intros d; cbn [In]; rewrite Il; split.
        * intros [<-|[c [Hc Hb]]]; [apply below_refl; congruence|]. apply Cc in Hc. eapply below_child; eauto.
        * intros Hb; apply below_inv in Hb as [->|[c [Hc Hb]]]; [now left|]. right; exists c; split; [now apply Cc|exact Hb].
      + cbn [length]; lia. }
  intros t n Hn; split; [now apply C|]. now apply (Main (height n)).
Qed.
End X.
