(** Occurrences of words in a sequence: the combinatorics behind the suffix
    automaton, independent of the program. *)
From Verif Require Import Base.

Section Suf.
Context {A : Type}.
Implicit Types u w l : list A.

Definition suf w l : Prop := exists p, l = p ++ w.

Lemma suf_refl l : suf l l.
Proof. exists []; reflexivity. Qed.
Lemma suf_nil l : suf [] l.
Proof. exists l; now rewrite app_nil_r. Qed.
Lemma suf_trans u w l : suf u w -> suf w l -> suf u l.
Proof. intros [p ->] [q ->]; exists (q ++ p); now rewrite app_assoc. Qed.
Lemma suf_length w l : suf w l -> length w <= length l.
Proof. intros [p ->]; rewrite app_length; lia. Qed.
Lemma suf_app p w l : suf w l -> suf w (p ++ l).
Proof. intros [q ->]; exists (p ++ q); now rewrite app_assoc. Qed.
Lemma suf_cons c w l : suf (c :: w) l -> suf w l.
Proof. apply suf_trans; exists [c]; reflexivity. Qed.
Lemma suf_len_eq w l : suf w l -> length l <= length w -> w = l.
Proof.
  intros [p ->]; rewrite app_length; intros H; destruct p; [reflexivity|cbn in H; lia].
Qed.
Lemma suf_nil_inv w : suf w [] -> w = [].
Proof. intros H; apply suf_length in H; cbn in H; destruct w; [reflexivity|cbn in H; lia]. Qed.
Lemma suf_skipn w l : suf w l -> w = skipn (length l - length w) l.
Proof.
  intros [p ->]; rewrite app_length.
  replace (length p + length w - length w) with (length p) by lia.
  rewrite skipn_app, Nat.sub_diag, skipn_all; reflexivity.
Qed.
Lemma skipn_suf n l : suf (skipn n l) l.
Proof. exists (firstn n l); now rewrite firstn_skipn. Qed.
Lemma suf_comparable u w l : suf u l -> suf w l -> length u <= length w -> suf u w.
Proof.
  intros Hu Hw Hl.
  pose proof (suf_length _ _ Hw) as Hwl.
  destruct Hw as [q ->], Hu as [p Hp].
  exists (skipn (length q) p).
  assert (Hlen : length q <= length p).
  { apply (f_equal (@length A)) in Hp; rewrite !app_length in Hp; lia. }
  apply (f_equal (skipn (length q))) in Hp.
  rewrite !skipn_app, skipn_all, Nat.sub_diag in Hp; cbn in Hp.
  replace (length q - length p) with 0 in Hp by lia; exact Hp.
Qed.
Lemma suf_same_len u w l : suf u l -> suf w l -> length u = length w -> u = w.
Proof.
  intros Hu Hw He; apply suf_len_eq; [apply (suf_comparable _ _ l); auto; lia|lia].
Qed.
Lemma suf_snoc w l c d : suf (w ++ [c]) (l ++ [d]) <-> c = d /\ suf w l.
Proof.
  split.
  - intros [p Hp]; rewrite app_assoc in Hp; apply app_inj_tail in Hp.
    destruct Hp as [-> ->]; split; [reflexivity|exists p; reflexivity].
  - intros [-> [p ->]]; exists p; now rewrite app_assoc.
Qed.
Lemma suf_snoc_inv w l c : suf w (l ++ [c]) -> w = [] \/ exists w', w = w' ++ [c] /\ suf w' l.
Proof.
  destruct w as [|x w] using rev_ind; [auto|].
  intros H; apply suf_snoc in H; destruct H as [-> H]; right; eauto.
Qed.
Lemma suf_grow w l : suf w l -> length w < length l -> exists c, suf (c :: w) l.
Proof.
  intros [p ->]; rewrite app_length; intros H.
  destruct p as [|c p] using rev_ind; [cbn in H; lia|].
  exists c, p; now rewrite <- app_assoc.
Qed.
Lemma suf_cons_inv w x l : suf w (x :: l) -> w = x :: l \/ suf w l.
Proof.
  intros [[|y p] Hp]; cbn in Hp; [left; congruence|].
  injection Hp as _ ->; right; exists p; reflexivity.
Qed.
End Suf.

Section Occ.
Context {T : Type} {E : Teq T} {O : TeqOk T}.
Implicit Types s u w : list T.

(** [Occ s w e]: an occurrence of [w] in [s] ends at position [e]. *)
Definition Occ s w e : Prop := e <= length s /\ suf w (firstn e s).
Definition Sub s w : Prop := exists e, Occ s w e.
Definition eqv s u w : Prop := forall e, Occ s u e <-> Occ s w e.
(** [w] is the longest word with its set of end positions. *)
Definition Canon s w : Prop := Sub s w /\ forall u, suf w u -> eqv s u w -> u = w.

Lemma Occ_suf s u w e : suf u w -> Occ s w e -> Occ s u e.
Proof. intros H [H1 H2]; split; [exact H1|eapply suf_trans; eauto]. Qed.
Lemma Occ_le s w e : Occ s w e -> length w <= e.
Proof. intros [H1 H2]; apply suf_length in H2; rewrite firstn_length in H2; lia. Qed.
Lemma Occ_bound s w e : Occ s w e -> e <= length s.
Proof. intros [H _]; exact H. Qed.
Lemma Occ_comparable s u w e : Occ s u e -> Occ s w e -> length u <= length w -> suf u w.
Proof. intros [_ H1] [_ H2]; eapply suf_comparable; eauto. Qed.
Lemma Occ_nil s e : e <= length s -> Occ s [] e.
Proof. intros H; split; [exact H|apply suf_nil]. Qed.
Lemma Occ_full s : Occ s s (length s).
Proof. split; [lia|rewrite firstn_all; apply suf_refl]. Qed.
Lemma Occ_prefix s e : e <= length s -> Occ s (firstn e s) e.
Proof. intros H; split; [exact H|apply suf_refl]. Qed.

Lemma Occ_snoc s w c e :
  Occ s (w ++ [c]) e <-> exists e', e = S e' /\ Occ s w e' /\ nth_error s e' = Some c.
Proof.
  split.
  - intros [Hb Hs]; pose proof (suf_length _ _ Hs) as Hl.
    rewrite app_length, firstn_length in Hl; cbn in Hl.
    destruct e as [|e']; [lia|]; exists e'; split; [reflexivity|].
    destruct (nth_error s e') as [d|] eqn:Hn.
    2:{ apply nth_error_None in Hn; lia. }
    assert (Hf : firstn (S e') s = firstn e' s ++ [d]).
    { clear - Hn; revert s Hn; induction e' as [|e' IH]; intros [|x s] Hn; cbn in *;
        try discriminate; [congruence|].
      now rewrite <- (IH s). }
    rewrite Hf in Hs; apply suf_snoc in Hs; destruct Hs as [-> Hs].
    split; [split; [lia|exact Hs]|reflexivity].
  - intros [e' [-> [[Hb Hs] Hn]]].
    assert (Hlt : e' < length s) by (apply nth_error_Some; congruence).
    split; [lia|].
    assert (Hf : firstn (S e') s = firstn e' s ++ [c]).
    { clear - Hn; revert s Hn; induction e' as [|e' IH]; intros [|x s] Hn; cbn in *;
        try discriminate; [congruence|].
      now rewrite <- (IH s). }
    rewrite Hf; apply suf_snoc; auto.
Qed.

Lemma Occ_app_iff s c w e :
  Occ (s ++ [c]) w e <-> Occ s w e \/ (e = S (length s) /\ suf w (s ++ [c])).
Proof.
  unfold Occ; rewrite app_length; cbn; split.
  - intros [Hb Hs]; destruct (Nat.eq_dec e (S (length s))) as [->|Hn].
    + right; split; [reflexivity|].
      replace (S (length s)) with (length (s ++ [c])) in Hs by (rewrite app_length; cbn; lia).
      now rewrite firstn_all in Hs.
    + left; split; [lia|]; rewrite firstn_app in Hs.
      replace (e - length s) with 0 in Hs by lia; cbn in Hs; now rewrite app_nil_r in Hs.
  - intros [[Hb Hs]|[-> Hs]].
    + split; [lia|]; rewrite firstn_app; replace (e - length s) with 0 by lia; cbn.
      now rewrite app_nil_r.
    + split; [lia|]; rewrite firstn_all2; [exact Hs|rewrite app_length; cbn; lia].
Qed.
Lemma Occ_app s c w e : Occ s w e -> Occ (s ++ [c]) w e.
Proof. intros H; apply Occ_app_iff; auto. Qed.
Lemma Occ_app_old s c w e : Occ (s ++ [c]) w e -> e <= length s -> Occ s w e.
Proof. intros H Hl; apply Occ_app_iff in H; destruct H as [H|[-> _]]; [exact H|lia]. Qed.
Lemma Occ_new s c w : Occ (s ++ [c]) w (S (length s)) <-> suf w (s ++ [c]).
Proof.
  rewrite Occ_app_iff; split; [|auto].
  intros [[H _]|[_ H]]; [lia|exact H].
Qed.
Lemma Sub_app s c w : Sub s w -> Sub (s ++ [c]) w.
Proof. intros [e H]; exists e; now apply Occ_app. Qed.
Lemma Sub_app_iff s c w : Sub (s ++ [c]) w <-> Sub s w \/ suf w (s ++ [c]).
Proof.
  split.
  - intros [e H]; apply Occ_app_iff in H; destruct H as [H|[_ H]]; [left; exists e; exact H|auto].
  - intros [H|H]; [now apply Sub_app|exists (S (length s)); now apply Occ_new].
Qed.
Lemma Sub_suf s u w : suf u w -> Sub s w -> Sub s u.
Proof. intros H [e He]; exists e; eapply Occ_suf; eauto. Qed.
Lemma Sub_nil s : Sub s [].
Proof. exists 0; apply Occ_nil; lia. Qed.
Lemma Sub_of_suf s w : suf w s -> Sub s w.
Proof. intros H; exists (length s); eapply Occ_suf; [exact H|apply Occ_full]. Qed.
Lemma Sub_length s w : Sub s w -> length w <= length s.
Proof. intros [e H]; pose proof (Occ_le _ _ _ H); pose proof (Occ_bound _ _ _ H); lia. Qed.
Lemma Sub_snoc s w c : Sub s (w ++ [c]) -> Sub s w.
Proof. intros [e H]; apply Occ_snoc in H; destruct H as [e' [_ [H _]]]; exists e'; exact H. Qed.

Lemma eqv_refl s w : eqv s w w.
Proof. intros e; tauto. Qed.
Lemma eqv_sym s u w : eqv s u w -> eqv s w u.
Proof. intros H e; specialize (H e); tauto. Qed.
Lemma eqv_trans s u v w : eqv s u v -> eqv s v w -> eqv s u w.
Proof. intros H1 H2 e; specialize (H1 e); specialize (H2 e); tauto. Qed.
Lemma eqv_Sub s u w : eqv s u w -> Sub s u -> Sub s w.
Proof. intros H [e He]; exists e; now apply H. Qed.
Lemma eqv_snoc s u w c : eqv s u w -> eqv s (u ++ [c]) (w ++ [c]).
Proof.
  intros H e; rewrite !Occ_snoc.
  split; intros [e' [-> [Ho Hn]]]; exists e'; (split; [reflexivity|split; [apply H, Ho|exact Hn]]).
Qed.
(** a word between two equivalent nested words is equivalent to both *)
Lemma eqv_between s u v w : suf u v -> suf v w -> eqv s u w -> eqv s v w.
Proof.
  intros H1 H2 H e; split; intros Ho.
  - apply H; eapply Occ_suf; eauto.
  - eapply Occ_suf; eauto.
Qed.
Lemma eqv_nested s u w : Sub s u -> eqv s u w -> length u <= length w -> suf u w.
Proof. intros [e He] H Hl; eapply Occ_comparable; [exact He|apply H, He|exact Hl]. Qed.

Lemma Canon_uniq s u w : Canon s u -> Canon s w -> eqv s u w -> u = w.
Proof.
  intros [Su Cu] [Sw Cw] H.
  destruct (le_ge_dec (length u) (length w)) as [Hl|Hl].
  - symmetry; apply Cu; [apply (eqv_nested s); assumption|apply eqv_sym, H].
  - apply Cw; [apply (eqv_nested s); [exact Sw|apply eqv_sym, H|lia]|exact H].
Qed.

Lemma Occ_dec s w e : {Occ s w e} + {~ Occ s w e}.
Proof.
  destruct (le_dec e (length s)) as [Hb|Hb]; [|right; intros [C _]; lia].
  destruct (Tlist_dec w (skipn (length (firstn e s) - length w) (firstn e s))) as [H|H].
  - left; split; [exact Hb|rewrite H; apply skipn_suf].
  - right; intros [_ C]; apply H; now apply suf_skipn.
Qed.
Lemma bounded_dec (P : nat -> Prop) n : (forall e, {P e} + {~ P e}) ->
  {forall e, e <= n -> P e} + {exists e, e <= n /\ ~ P e}.
Proof.
  intros D; induction n as [|n [IH|IH]].
  - destruct (D 0) as [H|H]; [left|right; exists 0; auto].
    intros e He; replace e with 0 by lia; exact H.
  - destruct (D (S n)) as [H|H]; [left|right; exists (S n); auto].
    intros e He; destruct (Nat.eq_dec e (S n)) as [->|]; [exact H|apply IH; lia].
  - right; destruct IH as [e [He Hn]]; exists e; split; [lia|exact Hn].
Qed.
Lemma Sub_dec s w : {Sub s w} + {~ Sub s w}.
Proof.
  destruct (bounded_dec (fun e => ~ Occ s w e) (length s)) as [H|H].
  - intros e; destruct (Occ_dec s w e); [right|left]; tauto.
  - right; intros [e He]; eapply H; [apply He|exact He].
  - left; destruct H as [e [_ H]]; exists e; destruct (Occ_dec s w e); tauto.
Qed.
Lemma eqv_dec s u w : {eqv s u w} + {~ eqv s u w}.
Proof.
  destruct (bounded_dec (fun e => Occ s u e <-> Occ s w e) (length s)) as [H|H].
  - intros e; destruct (Occ_dec s u e), (Occ_dec s w e); [left|right|right|left]; tauto.
  - left; intros e; destruct (le_dec e (length s)) as [Hb|Hb]; [now apply H|].
    split; intros [C _]; lia.
  - right; intros C; destruct H as [e [_ H]]; apply H, C.
Qed.

(** every word of [s] has a longest equivalent extension *)
Lemma Canon_exists s w : Sub s w -> exists w', suf w w' /\ eqv s w' w /\ Canon s w'.
Proof.
  intros HS; remember (length s - length w) as n eqn:Hn; revert w HS Hn.
  induction n as [n IH] using lt_wf_ind; intros w HS Hn.
  pose proof (Sub_length _ _ HS) as Hlen.
  destruct HS as [e0 He0].
  destruct (le_lt_dec (length (firstn e0 s)) (length w)) as [Hl|Hl].
  - exists w; split; [apply suf_refl|]; split; [apply eqv_refl|]; split; [exists e0; exact He0|].
    intros u Hu Hq; apply Hq in He0 as Hu0; symmetry; apply suf_len_eq; [exact Hu|].
    apply Occ_le in Hu0; rewrite firstn_length in Hl; destruct He0; lia.
  - destruct (suf_grow w (firstn e0 s)) as [c Hc]; [apply He0|exact Hl|].
    assert (Ho : Occ s (c :: w) e0) by (split; [apply He0|exact Hc]).
    destruct (eqv_dec s (c :: w) w) as [Hq|Hq].
    + destruct (IH (length s - length (c :: w))) with (w := c :: w) as [w' [H1 [H2 H3]]];
        [|exists e0; exact Ho|reflexivity|].
      { apply Occ_le in Ho; apply Occ_bound in He0; cbn [length] in *; lia. }
      exists w'; split; [eapply suf_cons; eauto|]; split; [eapply eqv_trans; eauto|exact H3].
    + exists w; split; [apply suf_refl|]; split; [apply eqv_refl|]; split; [exists e0; exact He0|].
      intros u Hu Huq.
      destruct (le_lt_dec (length u) (length w)) as [Hle|Hlt]; [symmetry; now apply suf_len_eq|].
      exfalso; apply Hq.
      assert (Hcu : suf (c :: w) u).
      { eapply Occ_comparable; [exact Ho|apply Huq, He0|cbn; lia]. }
      eapply eqv_trans; [|exact Huq].
      apply (eqv_between s w); [exists [c]; reflexivity|exact Hcu|now apply eqv_sym].
Qed.

(** prefixes are canonical *)
Lemma Canon_prefix s e : e <= length s -> Canon s (firstn e s).
Proof.
  intros H; split; [exists e; now apply Occ_prefix|].
  intros u Hu Hq; symmetry; apply suf_len_eq; [exact Hu|].
  assert (Ho : Occ s u e) by (apply Hq; now apply Occ_prefix).
  apply Occ_le in Ho; rewrite firstn_length; lia.
Qed.
Lemma Canon_full s : Canon s s.
Proof. rewrite <- (firstn_all s) at 2; now apply Canon_prefix. Qed.
Lemma Canon_nil s : Canon s [].
Proof. apply (Canon_prefix s 0); lia. Qed.

(** first occurrence *)
Definition first_end s w e : Prop := Occ s w e /\ forall e', Occ s w e' -> e <= e'.
Lemma first_end_exists s w : Sub s w -> exists e, first_end s w e.
Proof.
  intros [e He]; induction e as [e IH] using lt_wf_ind.
  destruct (bounded_dec (fun k => k < e -> ~ Occ s w k) e) as [H|H].
  - intros k; destruct (lt_dec k e), (Occ_dec s w k); try (left; tauto); right; tauto.
  - exists e; split; [exact He|]; intros e' He'.
    destruct (le_lt_dec e e') as [|C]; [assumption|exfalso; apply (H e'); auto; lia].
  - destruct H as [k [Hk Hn]].
    destruct (lt_dec k e) as [Hlt|]; [|tauto].
    destruct (Occ_dec s w k) as [Ho|]; [|tauto].
    now apply (IH k).
Qed.
End Occ.
