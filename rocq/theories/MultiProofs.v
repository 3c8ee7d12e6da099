(** Correctness of [find_lcs_multiple]. *)
From Verif Require Import Base Strings StringsExt Automaton AutomatonInv SpecSeq AutomatonProofs
  AutomatonCost AutomatonCostProofs Multi.

#[global] Instance TeqOk_mtok {T} {E : Teq T} {O : TeqOk T} : TeqOk (mtok T).
Proof.
  intros [a|i] [b|j]; cbn; split; try congruence; try discriminate.
  - intros H; f_equal; now apply teq_ok.
  - intros H; injection H as ->; apply teq_refl.
  - intros H; apply Nat.eqb_eq in H; congruence.
  - intros H; injection H as ->; apply Nat.eqb_refl.
Qed.

Lemma nth_error_skipn {A} (l : list A) n i : nth_error (skipn n l) i = nth_error l (n + i).
Proof.
  revert l; induction n as [|n IH]; intros l; [reflexivity|].
  destruct l as [|x l]; [now destruct i|exact (IH l)].
Qed.
Lemma nth_error_firstn_lt {A} (l : list A) n i : i < n -> nth_error (firstn n l) i = nth_error l i.
Proof.
  revert l i; induction n as [|n IH]; intros l i Hi; [lia|].
  destruct l as [|x l]; [reflexivity|]; destruct i as [|i]; [reflexivity|]; cbn; apply IH; lia.
Qed.

(** ** Sets *)
Section Sets.
Context {U : Type} {E : Teq U} {O : TeqOk U}.
Lemma existsb_teq x (a : list U) : existsb (teq x) a = true <-> In x a.
Proof.
  rewrite existsb_exists; split.
  - intros [y [Hy He]]; apply teq_ok in He; congruence.
  - intros H; exists x; split; [exact H|apply teq_refl].
Qed.
Lemma set_add_In a (x y : U) : In y (set_add a x) <-> In y a \/ y = x.
Proof.
  unfold set_add; destruct (existsb (teq x) a) eqn:H.
  - apply existsb_teq in H; split; [auto|intros [K| ->]; auto].
  - rewrite in_app_iff; cbn; split; (intros [K|K]; [auto|]).
    + destruct K as [K|[]]; auto.
    + right; left; congruence.
Qed.
Lemma set_add_NoDup a (x : U) : NoDup a -> NoDup (set_add a x).
Proof.
  intros Ha; unfold set_add; destruct (existsb (teq x) a) eqn:H; [exact Ha|].
  assert (Hx : ~ In x a) by (intros C; apply existsb_teq in C; congruence).
  apply NoDup_app_intro; auto.
  - repeat constructor; intros [].
  - intros y Hy [<-|[]]; contradiction.
Qed.
Lemma set_union_In b : forall a (y : U), In y (set_union a b) <-> In y a \/ In y b.
Proof.
  induction b as [|x b IH]; intros a y; cbn; [tauto|].
  unfold set_union in IH; rewrite IH, set_add_In; split; intros H; destruct H as [H|H]; auto.
  - destruct H; auto.
  - destruct H; auto.
Qed.
Lemma set_union_NoDup b : forall a : list U, NoDup a -> NoDup (set_union a b).
Proof.
  induction b as [|x b IH]; intros a Ha; cbn; [exact Ha|]; apply IH; now apply set_add_NoDup.
Qed.
End Sets.

(** ** The regions of the concatenated sequence *)
Section Regions.
Context {T : Type}.
Implicit Types (ss : list (list T)) (s w : list T).
Notation cat ss := (concat_from Sep 0 (map (map Tok) ss)).

Fixpoint start ss (k : nat) : nat :=
  match k, ss with
  | S k', s :: ss' => length s + 1 + start ss' k'
  | _, _ => 0
  end.
Definition region ss (k e : nat) : Prop :=
  exists s, nth_error ss k = Some s /\ start ss k <= e <= start ss k + length s.

Definition look ss (k e : nat) : option (mtok T) :=
  match nth_error ss k with
  | Some s => match nth_error s (e - start ss k) with
              | Some t => Some (Tok t)
              | None => Some (Sep k)
              end
  | None => None
  end.

Lemma concat_cons s ss i : concat_from Sep i (map (map Tok) (s :: ss)) =
  map Tok s ++ Sep i :: concat_from Sep (S i) (map (map Tok) ss).
Proof. reflexivity. Qed.

Lemma cat_nth ss : forall i k e, region ss k e ->
  exists s, nth_error ss k = Some s /\
  nth_error (concat_from Sep i (map (map Tok) ss)) e =
  match nth_error s (e - start ss k) with Some t => Some (Tok t) | None => Some (Sep (i + k)) end.
Proof.
  induction ss as [|s ss IH]; intros i k e [s0 [Hs He]]; [destruct k; discriminate|].
  rewrite concat_cons; destruct k as [|k]; cbn [start nth_error] in *.
  - injection Hs as <-; exists s; split; [reflexivity|].
    rewrite Nat.sub_0_r, Nat.add_0_r; destruct (le_lt_dec (length s) e) as [Hle|Hlt].
    + assert (e = length s) by lia; subst e.
      rewrite nth_error_app2 by (rewrite map_length; lia); rewrite map_length, Nat.sub_diag.
      rewrite (proj2 (nth_error_None s (length s))) by lia; reflexivity.
    + rewrite nth_error_app1 by (rewrite map_length; lia); rewrite nth_error_map.
      destruct (nth_error s e) as [t|] eqn:Ht; [reflexivity|]; apply nth_error_None in Ht; lia.
  - destruct (IH (S i) k (e - (length s + 1))) as [s1 [Hs1 HN]].
    { exists s0; split; [exact Hs|lia]. }
    exists s1; split; [exact Hs1|].
    rewrite nth_error_app2 by (rewrite map_length; lia); rewrite map_length.
    replace (e - length s) with (S (e - (length s + 1))) by lia; cbn [nth_error]; rewrite HN.
    replace (e - (length s + 1 + start ss k)) with (e - (length s + 1) - start ss k) by lia.
    replace (i + S k) with (S i + k) by lia; reflexivity.
Qed.

Lemma cat_region ss : forall i e, e < length (concat_from Sep i (map (map Tok) ss)) ->
  exists k, region ss k e.
Proof.
  induction ss as [|s ss IH]; intros i e He; [cbn in He; lia|].
  rewrite concat_cons, app_length, map_length in He; cbn [length] in He.
  destruct (le_lt_dec e (length s)) as [Hle|Hlt].
  - exists 0, s; cbn; split; [reflexivity|lia].
  - destruct (IH (S i) (e - (length s + 1))) as [k [s0 [Hs He0]]]; [lia|].
    exists (S k), s0; cbn; split; [exact Hs|lia].
Qed.
Lemma region_length ss : forall i k e, region ss k e ->
  e < length (concat_from Sep i (map (map Tok) ss)).
Proof.
  intros i k e H; destruct (cat_nth ss i k e H) as [s [_ Hn]]; apply nth_error_Some.
  rewrite Hn; destruct (nth_error s (e - start ss k)); discriminate.
Qed.
Lemma start_lt ss : forall k k' s s', nth_error ss k = Some s -> nth_error ss k' = Some s' -> k < k' ->
  start ss k + length s < start ss k'.
Proof.
  induction ss as [|s0 ss IH]; intros k k' s s' Hk Hk' Hl; [destruct k; discriminate|].
  destruct k' as [|k']; [lia|]; destruct k as [|k]; cbn in *.
  - injection Hk as <-; lia.
  - specialize (IH k k' s s' Hk Hk'); lia.
Qed.
Lemma region_uniq ss k k' e : region ss k e -> region ss k' e -> k = k'.
Proof.
  intros [s [Hs He]] [s' [Hs' He']].
  destruct (lt_eq_lt_dec k k') as [[Hl| ->]|Hl]; [|reflexivity|].
  - pose proof (start_lt ss k k' s s' Hs Hs' Hl); lia.
  - pose proof (start_lt ss k' k s' s Hs' Hs Hl); lia.
Qed.

(** what is read at a position of a region *)
Lemma region_read ss k e : region ss k e ->
  (exists t, nth_error (cat ss) e = Some (Tok t) /\ region ss k (S e)) \/
  (nth_error (cat ss) e = Some (Sep k) /\ ~ region ss k (S e)).
Proof.
  intros HR; destruct (cat_nth ss 0 k e HR) as [s [Hs Hn]].
  destruct HR as [s0 [Hs0 He]]; assert (s0 = s) by congruence; subst s0.
  destruct (nth_error s (e - start ss k)) as [t|] eqn:Ht.
  - left; exists t; split; [exact Hn|]; exists s; split; [exact Hs|].
    assert (e - start ss k < length s) by (apply nth_error_Some; congruence); lia.
  - right; split; [exact Hn|]; intros [s1 [Hs1 He1]]; apply nth_error_None in Ht.
    assert (s1 = s) by congruence; subst s1; lia.
Qed.
Lemma read_sep ss e k : nth_error (cat ss) e = Some (Sep k) -> region ss k e /\ ~ region ss k (S e).
Proof.
  intros Hn; destruct (cat_region ss 0 e) as [k' Hk']; [apply nth_error_Some; congruence|].
  destruct (region_read ss k' e Hk') as [[t [Ht _]]|[Ht Hr]]; rewrite Hn in Ht; [discriminate|].
  injection Ht as ->; auto.
Qed.
Lemma read_tok ss e t k : nth_error (cat ss) e = Some (Tok t) -> (region ss k e <-> region ss k (S e)).
Proof.
  intros Hn; destruct (cat_region ss 0 e) as [k' Hk']; [apply nth_error_Some; congruence|].
  destruct (region_read ss k' e Hk') as [[t' [_ HS]]|[Ht _]]; [|rewrite Hn in Ht; discriminate].
  split; intros HR.
  - now rewrite (region_uniq ss k k' e HR Hk').
  - now rewrite (region_uniq ss k k' (S e) HR HS).
Qed.

(** reading inside one string *)
Lemma cat_slice ss k s p l : nth_error ss k = Some s -> p + l <= length s ->
  slice (cat ss) (start ss k + p) l = map Tok (slice s p l).
Proof.
  generalize 0 as i; revert k; induction ss as [|s0 ss IH]; intros k i Hk Hl; [destruct k; discriminate|].
  rewrite concat_cons; destruct k as [|k]; cbn [start nth_error] in *.
  - injection Hk as <-; unfold slice; cbn [Nat.add].
    rewrite skipn_app, map_length, firstn_app, skipn_length, map_length.
    replace (l - (length s0 - p)) with 0 by lia; cbn [firstn]; rewrite app_nil_r.
    now rewrite skipn_map, firstn_map.
  - unfold slice in *; rewrite skipn_app, skipn_all2 by (rewrite map_length; lia); cbn [app].
    rewrite map_length; replace (length s0 + 1 + start ss k + p - length s0) with (S (start ss k + p)) by lia.
    cbn [skipn]; apply IH; auto.
Qed.
Lemma map_Tok_inj (a b : list T) : map Tok a = map Tok b -> a = b.
Proof.
  revert b; induction a as [|x a IH]; intros [|y b] H; try discriminate; [reflexivity|].
  cbn in H; injection H as -> H; f_equal; auto.
Qed.
Lemma occurs_in_string ss k s w p : nth_error ss k = Some s -> p + length w <= length s ->
  (occurs_at (cat ss) (map Tok w) (start ss k + p) <-> occurs_at s w p).
Proof.
  intros Hk Hl; unfold occurs_at; rewrite map_length, (cat_slice ss k s) by auto.
  assert (HL : start ss k + (p + length w) < length (cat ss)).
  { apply (region_length ss 0 k); exists s; split; [exact Hk|lia]. }
  split; intros [H1 H2]; split; try lia.
  - now apply map_Tok_inj.
  - now rewrite H2.
Qed.

(** a run of tokens that ends in a region starts in it *)
Lemma run_region ss k w : forall p, occurs_at (cat ss) (map Tok w) p -> region ss k (p + length w) ->
  region ss k p.
Proof.
  induction w as [|t w IH] using rev_ind; intros p HO HR; [cbn in HR; now rewrite Nat.add_0_r in HR|].
  rewrite app_length in HR; cbn in HR.
  destruct HO as [H1 H2]; rewrite map_app, app_length, map_length in *; cbn in *.
  assert (Hn : nth_error (cat ss) (p + length w) = Some (Tok t)).
  { apply (f_equal (fun l => nth_error l (length w))) in H2.
    rewrite nth_error_app2, map_length, Nat.sub_diag in H2 by (rewrite map_length; lia); cbn in H2.
    rewrite <- H2; unfold slice; rewrite nth_error_firstn_lt by lia; now rewrite nth_error_skipn. }
  apply IH.
  - split; [rewrite map_length; lia|]; rewrite map_length.
    apply (f_equal (firstn (length w))) in H2.
    rewrite firstn_app, map_length, Nat.sub_diag, app_nil_r in H2.
    rewrite (firstn_all2 (map Tok w)) in H2 by (rewrite map_length; lia).
    rewrite <- H2; unfold slice; rewrite firstn_firstn; f_equal; lia.
  - apply (read_tok ss _ t k Hn); replace (S (p + length w)) with (p + (length w + 1)) by lia; exact HR.
Qed.
End Regions.

(** ** The traversal *)
Lemma filter_length_le {A} (f : A -> bool) l : length (filter f l) <= length l.
Proof. induction l as [|a l IH]; cbn; [lia|]; destruct (f a); cbn; lia. Qed.

Section Loop.
Context {T : Type} {E : Teq T} {O : TeqOk T}.
Variables (ss : list (list T)) (W : nat -> list (mtok T)) (h : heap (mtok T)).
Notation cat := (concat_from Sep 0 (map (map Tok) ss)).
Hypothesis HA : AInv W cat h.
Notation n := (length h).
Notation count := (length ss).
Implicit Type m : dict nat (list (mtok T)).

(** some occurrence of the words of state [i] ends in string [k] *)
Definition shares (i k : nat) : Prop := exists e, Occ cat (W i) e /\ region ss k e.
Definition set_ok (i : nat) (sh : list (mtok T)) : Prop :=
  NoDup sh /\ forall x, In x sh <-> exists k, x = Sep k /\ shares i k.
Definition full (i : nat) : Prop := forall k, k < count -> shares i k.

Lemma region_count k e : region ss k e -> k < count.
Proof. intros [s [Hs _]]; apply nth_error_Some; congruence. Qed.
Lemma set_full i sh : set_ok i sh -> (length sh = count <-> full i).
Proof.
  intros [H1 H2].
  assert (HI : incl sh (map Sep (seq 0 count))).
  { intros x Hx; apply H2 in Hx; destruct Hx as [k [-> [e [_ HR]]]].
    apply in_map, in_seq; apply region_count in HR; lia. }
  assert (HL : length (map (@Sep T) (seq 0 count)) = count) by (now rewrite map_length, seq_length).
  assert (HN : NoDup (map (@Sep T) (seq 0 count))).
  { apply NoDup_map_inj; [congruence|apply seq_NoDup]. }
  split.
  - intros Hl k Hk.
    assert (HI' : incl (map (@Sep T) (seq 0 count)) sh) by (apply NoDup_length_incl; auto; lia).
    assert (Hin : In (Sep k) sh) by (apply HI', in_map, in_seq; lia).
    apply H2 in Hin; destruct Hin as [k' [Hk' HS]]; congruence.
  - intros HF; apply Nat.le_antisymm.
    + rewrite <- HL; now apply NoDup_incl_length.
    + rewrite <- HL at 1; apply NoDup_incl_length; [exact HN|].
      intros x Hx; apply in_map_iff in Hx; destruct Hx as [k [<- Hk]]; apply in_seq in Hk.
      apply H2; exists k; split; [reflexivity|apply HF; lia].
Qed.

(** the words of a state end in string [k] iff the next token says so *)
Lemma Occ_next i nd e : nth_error h i = Some nd -> Occ cat (W i) e -> forall t,
  nth_error cat e = Some t -> exists j, dget (n_trans nd) t = Some j /\ Occ cat (W j) (S e).
Proof.
  intros Hn HO t Ht.
  pose proof (ok_trans _ _ _ _ _ (ai_node _ _ _ HA _ _ Hn) t) as K.
  assert (HO' : Occ cat (W i ++ [t]) (S e)) by (apply Occ_snoc; eauto).
  destruct (dget (n_trans nd) t) as [j|]; cbn in K.
  - exists j; split; [reflexivity|]; now apply K.
  - exfalso; apply K; eexists; eauto.
Qed.
Lemma Occ_prev i nd j t e : nth_error h i = Some nd -> dget (n_trans nd) t = Some j ->
  Occ cat (W j) e -> exists e0, e = S e0 /\ Occ cat (W i) e0 /\ nth_error cat e0 = Some t.
Proof.
  intros Hn Hd HO.
  pose proof (ok_trans _ _ _ _ _ (ai_node _ _ _ HA _ _ Hn) t) as K; rewrite Hd in K.
  destruct K as [_ [_ K]]; apply K in HO; apply Occ_snoc in HO.
  destruct HO as [e0 [-> [H1 H2]]]; eauto.
Qed.

Lemma trans_lt i nd t j : nth_error h i = Some nd -> dget (n_trans nd) t = Some j ->
  j < n /\ length (W i) < length (W j).
Proof.
  intros Hn Hd; pose proof (ok_trans _ _ _ _ _ (ai_node _ _ _ HA _ _ Hn) t) as K; rewrite Hd in K.
  destruct K as [Hj [Hs _]]; split; [exact Hj|]; apply suf_length in Hs; rewrite app_length in Hs; cbn in Hs; lia.
Qed.

Lemma shared_of_ok m tr : forall acc,
  NoDup acc ->
  (forall t j, In (t, j) tr -> is_Sep t = false -> exists ms, dget m j = Some ms) ->
  exists sh, shared_of is_Sep m acc tr = Some sh /\ NoDup sh /\
    forall x, In x sh <-> In x acc \/ (exists j, In (x, j) tr /\ is_Sep x = true) \/
      (exists t j ms, In (t, j) tr /\ is_Sep t = false /\ dget m j = Some ms /\ In x ms).
Proof.
  induction tr as [|[t j] tr IH]; intros acc HN Hm; cbn [shared_of].
  - exists acc; split; [reflexivity|]; split; [exact HN|]; intros x; split; [auto|].
    intros [H|[[j [[] _]]|[t [j [ms [[] _]]]]]]; exact H.
  - destruct (is_Sep t) eqn:Ht.
    + destruct (IH (set_add acc t)) as [sh [-> [H1 H2]]].
      { now apply set_add_NoDup. }
      { intros t' j' Hin; apply Hm; now right. }
      exists sh; split; [reflexivity|]; split; [exact H1|]; intros x; rewrite H2, set_add_In; split.
      * intros [[H| ->]|[[j' [H K]]|[t' [j' [ms [H K]]]]]]; [auto| | |].
        -- right; left; exists j; split; [now left|exact Ht].
        -- right; left; exists j'; split; [now right|exact K].
        -- right; right; exists t', j', ms; split; [now right|exact K].
      * intros [H|[[j' [[H|H] K]]|[t' [j' [ms [[H|H] K]]]]]]; [auto| | | |].
        -- injection H as -> _; auto.
        -- right; left; eauto.
        -- injection H as -> _; destruct K as [K _]; congruence.
        -- right; right; exists t', j', ms; auto.
    + destruct (Hm t j (or_introl eq_refl) Ht) as [ms Hms]; rewrite Hms.
      destruct (IH (set_union acc ms)) as [sh [-> [H1 H2]]].
      { now apply set_union_NoDup. }
      { intros t' j' Hin; apply Hm; now right. }
      exists sh; split; [reflexivity|]; split; [exact H1|]; intros x; rewrite H2, set_union_In; split.
      * intros [[H|H]|[[j' [H K]]|[t' [j' [ms' [H K]]]]]]; [auto| | |].
        -- right; right; exists t, j, ms; split; [now left|auto].
        -- right; left; exists j'; split; [now right|exact K].
        -- right; right; exists t', j', ms'; split; [now right|exact K].
      * intros [H|[[j' [[H|H] K]]|[t' [j' [ms' [[H|H] K]]]]]]; [auto| | | |].
        -- injection H as -> _; congruence.
        -- right; left; eauto.
        -- injection H as -> ->; destruct K as [_ [K1 K2]].
           rewrite Hms in K1; injection K1 as <-; auto.
        -- right; right; exists t', j', ms'; auto.
Qed.

(** ** The invariant of the traversal *)
Record good m (mx best : nat) : Prop := {
  g_set : forall i sh, dget m i = Some sh -> i < n /\ set_ok i sh;
  g_closed : forall i nd t j, dmem m i = true -> nth_error h i = Some nd ->
     dget (n_trans nd) t = Some j -> dmem m j = true;
  g_best : best < n /\ mx = length (W best) /\ (best = 0 \/ full best);
  g_max : forall i, dmem m i = true -> full i -> length (W i) <= mx
}.
Lemma node_set_ok m mx best i nd sh : good m mx best -> nth_error h i = Some nd ->
  forallb (dmem m) (dvalues (n_trans nd)) = true ->
  shared_of is_Sep m [] (n_trans nd) = Some sh -> set_ok i sh.
Proof.
  intros HG Hn Hall Hsh.
  assert (HK : NoDup (dkeys (n_trans nd))) by apply (ok_keys _ _ _ _ _ (ai_node _ _ _ HA _ _ Hn)).
  assert (Hm : forall t j, In (t, j) (n_trans nd) -> exists ms, dget m j = Some ms).
  { intros t j Hin; rewrite forallb_forall in Hall.
    assert (Hj : dmem m j = true) by (apply Hall; now apply (in_map snd) in Hin).
    unfold dmem in Hj; destruct (dget m j); [eauto|discriminate]. }
  destruct (shared_of_ok m (n_trans nd) [] (NoDup_nil _) ltac:(intros; eapply Hm; eauto)) as [sh' [Hsh' [H1 H2]]].
  rewrite Hsh in Hsh'; injection Hsh' as <-; split; [exact H1|].
  intros x; rewrite H2; split.
  - intros [[]|[[j [Hin Hx]]|[t [j [ms [Hin [Ht [Hms Hx]]]]]]]].
    + destruct x as [|k]; [discriminate|]; exists k; split; [reflexivity|].
      apply (In_dget _ _ _ HK) in Hin.
      destruct (trans_lt i nd _ j Hn Hin) as [Hj _].
      destruct (a_canon W cat h HA j Hj) as [[e He] _].
      destruct (Occ_prev i nd j _ e Hn Hin He) as [e0 [-> [HO Hr]]].
      exists e0; split; [exact HO|]; now apply read_sep.
    + destruct (g_set _ _ _ HG _ _ Hms) as [Hj [_ HS]]; apply HS in Hx.
      destruct Hx as [k [-> [e [HO HR]]]]; exists k; split; [reflexivity|].
      apply (In_dget _ _ _ HK) in Hin.
      destruct (Occ_prev i nd j t e Hn Hin HO) as [e0 [-> [HO' Hr]]].
      destruct t as [t|]; [|discriminate].
      exists e0; split; [exact HO'|]; apply (read_tok ss e0 t k Hr); exact HR.
  - intros [k [-> [e [HO HR]]]].
    destruct (region_read ss k e HR) as [[t [Hr HR']]|[Hr _]].
    + destruct (Occ_next i nd e Hn HO _ Hr) as [j [Hd HO']]; apply dget_In in Hd.
      destruct (Hm _ _ Hd) as [ms Hms]; right; right; exists (Tok t), j, ms.
      split; [exact Hd|]; split; [reflexivity|]; split; [exact Hms|].
      destruct (g_set _ _ _ HG _ _ Hms) as [_ [_ HS]]; apply HS; exists k; split; [reflexivity|].
      exists (S e); auto.
    + destruct (Occ_next i nd e Hn HO _ Hr) as [j [Hd HO']]; apply dget_In in Hd.
      right; left; exists j; auto.
Qed.

Lemma dmem_dset m i j sh : dmem (dset m i sh) j = (i =? j) || dmem m j.
Proof.
  unfold dmem; rewrite dget_dset; change (teq i j) with (i =? j); destruct (i =? j); reflexivity.
Qed.

(** steps left *)
Definition outdeg (i : nat) : nat := match nth_error h i with Some nd => length (n_trans nd) | None => 0 end.
Definition todo_on (l : list nat) m : nat :=
  list_sum (map (fun i => if dmem m i then 0 else 2 + outdeg i) l).
Definition todo m : nat := todo_on (seq 0 n) m.
Lemma todo_dset_on m i sh l : dmem m i = false -> NoDup l -> In i l ->
  todo_on l (dset m i sh) + (2 + outdeg i) = todo_on l m.
Proof.
  intros Hi; unfold todo_on; induction l as [|x l IH]; intros HN Hin; [destruct Hin|].
  inversion HN as [|? ? Hx HN']; subst; cbn [map list_sum fold_right].
  change (fold_right Nat.add 0) with list_sum.
  rewrite dmem_dset; destruct (Nat.eqb_spec i x) as [->|Hne]; cbn [orb].
  - rewrite Hi; assert (He : map (fun i => if dmem (dset m x sh) i then 0 else 2 + outdeg i) l =
                        map (fun i => if dmem m i then 0 else 2 + outdeg i) l).
    { apply map_ext_in; intros y Hy; rewrite dmem_dset.
      destruct (Nat.eqb_spec x y) as [->|]; [contradiction|reflexivity]. }
    rewrite He; lia.
  - destruct Hin as [->|Hin]; [contradiction|]; specialize (IH HN' Hin); lia.
Qed.
Lemma todo_dset m i sh : dmem m i = false -> i < n -> todo (dset m i sh) + (2 + outdeg i) = todo m.
Proof. intros Hi Hn; apply todo_dset_on; auto; [apply seq_NoDup|apply in_seq; lia]. Qed.

Definition runs m stack mx best m' stack' mx' best' k : Prop :=
  forall fuel, multi_loop is_Sep (k + fuel) h count m stack mx best =
               multi_loop is_Sep fuel h count m' stack' mx' best'.

(** computing the set of a node whose children are known *)
Lemma compute_node v nd m mx best rest : nth_error h v = Some nd ->
  good m mx best -> dmem m v = false -> forallb (dmem m) (dvalues (n_trans nd)) = true ->
  exists m' mx' best', runs m (v :: rest) mx best m' rest mx' best' 1 /\ good m' mx' best' /\
    (forall i, dmem m' i = true <-> i = v \/ dmem m i = true) /\
    todo m' + (2 + length (n_trans nd)) = todo m.
Proof.
  intros Hnd HG Hmv Hall.
  assert (Hv : v < n) by (eapply node_idx; eauto).
  assert (Hm : forall t j, In (t, j) (n_trans nd) -> is_Sep t = false -> exists ms, dget m j = Some ms).
  { intros t j Hin _; rewrite forallb_forall in Hall.
    assert (Hj : dmem m j = true) by (apply Hall; now apply (in_map snd) in Hin).
    unfold dmem in Hj; destruct (dget m j); [eauto|discriminate]. }
  destruct (shared_of_ok m (n_trans nd) [] (NoDup_nil _) Hm) as [sh [Hsh _]].
  pose proof (node_set_ok m mx best v nd sh HG Hnd Hall Hsh) as HS.
  pose proof (ok_len _ _ _ _ _ (ai_node _ _ _ HA _ _ Hnd)) as Hlen.
  assert (Hset : forall i sh0, dget (dset m v sh) i = Some sh0 -> i < n /\ set_ok i sh0).
  { intros i sh0; rewrite dget_dset; change (teq v i) with (v =? i).
    destruct (Nat.eqb_spec v i) as [<-|]; [intros H; injection H as <-; auto|apply (g_set _ _ _ HG)]. }
  assert (Hcl : forall i nd0 t j, dmem (dset m v sh) i = true -> nth_error h i = Some nd0 ->
       dget (n_trans nd0) t = Some j -> dmem (dset m v sh) j = true).
  { intros i nd0 t j; rewrite !dmem_dset; destruct (Nat.eqb_spec v i) as [<-|]; cbn [orb]; intros H1 H2 H3;
      apply orb_true_iff; right.
    - rewrite Hnd in H2; injection H2 as <-; rewrite forallb_forall in Hall.
      apply Hall; apply dget_In in H3; now apply (in_map snd) in H3.
    - eapply (g_closed _ _ _ HG); eauto. }
  assert (Hmem : forall i, dmem (dset m v sh) i = true <-> i = v \/ dmem m i = true).
  { intros i; rewrite dmem_dset, orb_true_iff, Nat.eqb_eq; intuition congruence. }
  pose proof (todo_dset m v sh Hmv Hv) as Htodo; unfold outdeg in Htodo; rewrite Hnd in Htodo.
  destruct ((length sh =? count) && (mx <? n_len nd)) eqn:Hb.
  - exists (dset m v sh), (n_len nd), v; split.
    { intros fuel; cbn [Nat.add multi_loop]; rewrite Hmv, Hnd, Hall, Hsh; cbv zeta; rewrite Hb; reflexivity. }
    apply andb_true_iff in Hb; destruct Hb as [Hb1 Hb2]; apply Nat.eqb_eq in Hb1; apply Nat.ltb_lt in Hb2.
    split; [|auto]; constructor; auto.
    + split; [exact Hv|]; split; [exact Hlen|]; right; now apply (set_full v sh HS).
    + intros i Hi HF; apply Hmem in Hi; destruct Hi as [->|Hi]; [lia|].
      pose proof (g_max _ _ _ HG i Hi HF); lia.
  - exists (dset m v sh), mx, best; split.
    { intros fuel; cbn [Nat.add multi_loop]; rewrite Hmv, Hnd, Hall, Hsh; cbv zeta; rewrite Hb; reflexivity. }
    split; [|auto]; constructor; auto.
    + apply (g_best _ _ _ HG).
    + intros i Hi HF; apply Hmem in Hi; destruct Hi as [->|Hi]; [|apply (g_max _ _ _ HG i Hi HF)].
      apply andb_false_iff in Hb; destruct Hb as [Hb|Hb].
      * apply Nat.eqb_neq in Hb; exfalso; apply Hb; now apply (set_full v sh HS).
      * apply Nat.ltb_ge in Hb; lia.
Qed.

Definition processed v m rest mx best : Prop :=
  exists m' mx' best' k, runs m (v :: rest) mx best m' rest mx' best' k /\ good m' mx' best' /\
    dmem m' v = true /\ (forall i, dmem m i = true -> dmem m' i = true) /\
    (forall i, dmem m' i = true -> dmem m i = true \/ length (W v) <= length (W i)) /\
    k + todo m' <= todo m + 1.

(** a pile of nodes is processed one after the other *)
Lemma process_list b : forall l,
  (forall v, In v l -> b < length (W v) /\
     forall m mx best rest, good m mx best -> processed v m rest mx best) ->
  forall m mx best rest, good m mx best ->
  exists m' mx' best' k, runs m (l ++ rest) mx best m' rest mx' best' k /\ good m' mx' best' /\
    (forall j, In j l -> dmem m' j = true) /\ (forall i, dmem m i = true -> dmem m' i = true) /\
    (forall i, dmem m' i = true -> dmem m i = true \/ b < length (W i)) /\
    k + todo m' <= todo m + length l.
Proof.
  induction l as [|v l IH]; intros Hl m mx best rest HG.
  - exists m, mx, best, 0; split; [intros fuel; reflexivity|]; split; [exact HG|]; split; [intros j []|].
    split; [auto|]; split; [auto|cbn; lia].
  - destruct (Hl v (or_introl eq_refl)) as [Hb Hp].
    destruct (Hp m mx best (l ++ rest) HG) as [m1 [mx1 [b1 [k1 [R1 [G1 [V1 [M1 [N1 C1]]]]]]]]].
    destruct (IH (fun v Hv => Hl v (or_intror Hv)) m1 mx1 b1 rest G1)
      as [m2 [mx2 [b2 [k2 [R2 [G2 [V2 [M2 [N2 C2]]]]]]]]].
    exists m2, mx2, b2, (k1 + k2); split.
    { intros fuel; cbn [app]; rewrite <- Nat.add_assoc, R1; apply R2. }
    split; [exact G2|]; split; [intros j [<-|Hj]; auto|]; split; [auto|]; split; [|cbn [length]; lia].
    intros i Hi; destruct (N2 i Hi) as [Hi'|]; [|auto]; destruct (N1 i Hi') as [|]; [auto|right; lia].
Qed.

Lemma process_node : forall d v, length cat - length (W v) < d -> v < n ->
  forall m mx best rest, good m mx best -> processed v m rest mx best.
Proof.
  induction d as [|d IH]; intros v Hd Hv m mx best rest HG; [lia|].
  destruct (dmem m v) eqn:Hmv.
  { exists m, mx, best, 1; split; [intros fuel; cbn [Nat.add multi_loop]; now rewrite Hmv|].
    split; [exact HG|]; split; [exact Hmv|]; split; [auto|]; split; [auto|lia]. }
  destruct (idx_node h v Hv) as [nd Hnd].
  destruct (forallb (dmem m) (dvalues (n_trans nd))) eqn:Hall.
  { destruct (compute_node v nd m mx best rest Hnd HG Hmv Hall) as [m' [mx' [b' [R [G [M C]]]]]].
    exists m', mx', b', 1; split; [exact R|]; split; [exact G|]; split; [apply M; auto|].
    split; [intros i Hi; apply M; auto|]; split; [|lia].
    intros i Hi; apply M in Hi; destruct Hi as [->|]; auto. }
  set (l := rev (filter (fun j => negb (dmem m j)) (dvalues (n_trans nd)))).
  assert (Hlen : length l <= length (n_trans nd)).
  { unfold l; rewrite rev_length; etransitivity; [apply filter_length_le|]; unfold dvalues; now rewrite map_length. }
  assert (HK : NoDup (dkeys (n_trans nd))) by apply (ok_keys _ _ _ _ _ (ai_node _ _ _ HA _ _ Hnd)).
  assert (Hval : forall j, In j (dvalues (n_trans nd)) -> exists t, dget (n_trans nd) t = Some j).
  { intros j Hj; apply in_map_iff in Hj; destruct Hj as [[t j'] [<- Hin]].
    exists t; now apply In_dget. }
  destruct (process_list (length (W v)) l) with (m := m) (mx := mx) (best := best) (rest := v :: rest)
    as [m1 [mx1 [b1 [k1 [R1 [G1 [V1 [M1 [N1 C1]]]]]]]]]; [|exact HG|].
  { intros j Hj; unfold l in Hj; apply in_rev in Hj; apply filter_In in Hj; destruct Hj as [Hj _].
    destruct (Hval j Hj) as [t Ht]; destruct (trans_lt v nd t j Hnd Ht) as [Hjn Hlt].
    split; [exact Hlt|]; intros; apply IH; auto.
    pose proof (a_len W cat h HA j Hjn); lia. }
  assert (Hmv1 : dmem m1 v = false).
  { destruct (dmem m1 v) eqn:H1; [|reflexivity]; destruct (N1 v H1); [congruence|lia]. }
  assert (Hall1 : forallb (dmem m1) (dvalues (n_trans nd)) = true).
  { apply forallb_forall; intros j Hj; destruct (dmem m j) eqn:Hmj; [auto|].
    apply V1; unfold l; rewrite <- in_rev; apply filter_In; rewrite Hmj; auto. }
  destruct (compute_node v nd m1 mx1 b1 rest Hnd G1 Hmv1 Hall1) as [m' [mx' [b' [R [G [M C]]]]]].
  exists m', mx', b', (S (k1 + 1)); split.
  { intros fuel; cbn [Nat.add multi_loop]; rewrite Hmv, Hnd, Hall; fold l.
    rewrite <- Nat.add_assoc, R1; apply R. }
  split; [exact G|]; split; [apply M; auto|]; split; [intros i Hi; apply M; auto|]; split; [|lia].
  intros i Hi; apply M in Hi; destruct Hi as [->|Hi]; [auto|]; destruct (N1 i Hi); [auto|right; lia].
Qed.

Lemma todo_nil : todo [] = 2 * n + trans_count h.
Proof.
  unfold todo, todo_on, outdeg; cbn [dmem dget].
  assert (H : forall (g : heap (mtok T)) k, list_sum (map (fun i => 2 + match nth_error g (i - k) with
      Some nd => length (n_trans nd) | None => 0 end) (seq k (length g))) = 2 * length g + trans_count g).
  { induction g as [|nd g IH]; intros k; [reflexivity|].
    cbn [length seq map list_sum fold_right]; change (fold_right Nat.add 0) with list_sum.
    rewrite Nat.sub_diag; cbn [nth_error].
    unfold trans_count; cbn [map list_sum fold_right]; change (fold_right Nat.add 0) with list_sum.
    fold (trans_count g); specialize (IH (S k)).
    rewrite (map_ext_in _ (fun i => 2 + match nth_error g (i - S k) with
      Some nd => length (n_trans nd) | None => 0 end)), IH; [lia|].
    intros i Hi; apply in_seq in Hi; replace (i - k) with (S (i - S k)) by lia; reflexivity. }
  rewrite <- (H h 0); f_equal; apply map_ext; intros i; now rewrite Nat.sub_0_r.
Qed.

Lemma loop_ok : exists m mx best,
  multi_loop is_Sep (2 + (2 * n + trans_count h)) h count [] [0] 0 0 = Some (mx, best) /\
  good m mx best /\ dmem m 0 = true.
Proof.
  destruct (ai_root _ _ _ HA) as [H0 HW0].
  assert (HG : good [] 0 0).
  { constructor; [discriminate|discriminate| |discriminate].
    rewrite HW0; auto. }
  destruct (process_node (S (length cat)) 0 ltac:(lia) H0 [] 0 0 [] HG)
    as [m [mx [b [k [R [G [V [_ [_ C]]]]]]]]].
  exists m, mx, b; split; [|auto].
  rewrite todo_nil in C.
  replace (2 + (2 * n + trans_count h)) with (k + (2 + (2 * n + trans_count h) - k)) by lia.
  rewrite R; now destruct (2 + (2 * n + trans_count h) - k).
Qed.

(** ** Reading off the answer *)
Lemma read_sep_uniq e e' k : nth_error cat e = Some (Sep k) -> nth_error cat e' = Some (Sep k) -> e = e'.
Proof.
  intros H H'; apply read_sep in H, H'; destruct H as [[s [Hs He]] Hn], H' as [[s' [Hs' He']] Hn'].
  assert (s' = s) by congruence; subst s'.
  assert (e = start ss k + length s).
  { destruct (Nat.eq_dec e (start ss k + length s)); [assumption|exfalso; apply Hn; exists s; split; [exact Hs|lia]]. }
  assert (e' = start ss k + length s).
  { destruct (Nat.eq_dec e' (start ss k + length s)); [assumption|exfalso; apply Hn'; exists s; split; [exact Hs|lia]]. }
  congruence.
Qed.
Lemma full_tokens i : i < n -> full i -> exists w, W i = map Tok w.
Proof.
  intros Hi HF.
  assert (Hno : forall k u v, W i = u ++ Sep k :: v -> False).
  { intros k u v HW.
    assert (Hr : forall e, Occ cat (W i) e -> S (length v) <= e /\ nth_error cat (e - S (length v)) = Some (Sep k)).
    { intros e HO; apply Occ_iff in HO; destruct HO as [Hle [H1 H2]]; rewrite HW, app_length in *; cbn in *.
      split; [lia|].
      apply (f_equal (fun l => nth_error l (length u))) in H2.
      rewrite nth_error_app2, Nat.sub_diag in H2 by lia; cbn in H2; rewrite <- H2.
      unfold slice; rewrite nth_error_firstn_lt by lia; rewrite nth_error_skipn; f_equal; lia. }
    assert (Hk : k < count).
    { destruct (a_canon W cat h HA i Hi) as [[e HO] _]; destruct (Hr e HO) as [_ Hn].
      apply read_sep in Hn; destruct Hn as [Hn _]; now apply region_count in Hn. }
    destruct (HF k Hk) as [e [HO HR]]; destruct (Hr e HO) as [Hle Hn].
    apply read_sep in Hn; destruct Hn as [[s [Hs He]] Hn]; apply Hn.
    destruct HR as [s' [Hs' HR]]; assert (s' = s) by congruence; subst s'; exists s; split; [exact Hs|lia]. }
  revert Hno; clear; induction (W i) as [|x l IH]; intros Hno; [exists []; reflexivity|].
  destruct x as [t|k].
  - destruct IH as [w ->]; [|exists (t :: w); reflexivity].
    intros k u v He; apply (Hno k (Tok t :: u) v); cbn; congruence.
  - exfalso; apply (Hno k [] l); reflexivity.
Qed.

Lemma common_full w i : at_word W cat h i (map Tok w) ->
  (forall s, In s ss -> exists p, occurs_at s w p) -> full i.
Proof.
  intros [Hi [_ He]] Hw k Hk.
  destruct (nth_error ss k) as [s|] eqn:Hs; [|apply nth_error_None in Hs; lia].
  destruct (Hw s (nth_error_In _ _ Hs)) as [p Hp].
  exists (start ss k + p + length w); split.
  - apply He; rewrite <- (map_length (@Tok T) w); apply occurs_Occ.
    apply (occurs_in_string ss k s); auto; apply Hp.
  - destruct Hp as [Hp _]; exists s; split; [exact Hs|lia].
Qed.

Lemma known_reach m mx best : good m mx best -> forall w i j,
  dmem m i = true -> find_match_node h i w = Some (Some j) -> dmem m j = true.
Proof.
  intros HG; induction w as [|t w IH]; intros i j Hi Hf; cbn [find_match_node] in Hf; [congruence|].
  destruct (nth_error h i) as [nd|] eqn:Hnd; [|discriminate].
  destruct (dget (n_trans nd) t) as [j'|] eqn:Hd; [|discriminate].
  eapply IH; [|exact Hf]; eapply (g_closed _ _ _ HG); eauto.
Qed.

Lemma positions_ok i : i < n -> exists ps,
  get_all_start_positions h i (length (W i)) = Some ps /\ strictly_increasing ps /\
  forall p, In p ps <-> occurs_at cat (W i) p.
Proof.
  intros Hi; destruct (find_substring_all_ok W cat h (W i) HA) as [ps [Hf Hps]].
  exists ps; split; [|exact Hps].
  unfold find_substring_all in Hf.
  destruct (find_match_ok W cat h HA (W i) 0 [] (at_root W cat h HA)) as [[j [Hj Hat]]|[_ Hn]].
  - rewrite Hj in Hf; cbn [app] in Hat; destruct Hat as [Hjn [Hs He]].
    assert (j = i); [|now subst j].
    apply (ai_inj _ _ _ HA); auto.
    apply (Canon_uniq cat); [now apply (a_canon W cat h HA)|now apply (a_canon W cat h HA)|now apply eqv_sym].
  - exfalso; apply Hn; cbn [app]; apply (a_canon W cat h HA i Hi).
Qed.
End Loop.

(** ** [get_string_offsets] *)
Section Offsets.
Context {T : Type}.
Implicit Types (ss : list (list T)).

Lemma find_first ps q P : strictly_increasing ps -> In P ps -> q <= P ->
  exists p, find (fun p => q <=? p) ps = Some p /\ In p ps /\ q <= p /\ forall p', In p' ps -> q <= p' -> p <= p'.
Proof.
  intros HI; induction ps as [|x ps IH]; intros HP Hq; [destruct HP|].
  cbn [find]; destruct (Nat.leb_spec q x) as [Hle|Hgt].
  - exists x; split; [reflexivity|]; split; [now left|]; split; [exact Hle|].
    intros p' [<-|Hp'] _; [lia|].
    apply In_nth_error in Hp'; destruct Hp' as [k Hk].
    specialize (HI 0 (S k) x p' ltac:(lia) eq_refl Hk); lia.
  - destruct HP as [<-|HP]; [lia|].
    destruct IH as [p [H1 [H2 [H3 H4]]]]; auto.
    { intros i j a b Hij Ha Hb; apply (HI (S i) (S j)); auto; lia. }
    exists p; split; [exact H1|]; split; [now right|]; split; [exact H3|].
    intros p' [<-|Hp']; [lia|auto].
Qed.

Lemma offsets_ok ps (HI : strictly_increasing ps) : forall ss b,
  (forall k s, nth_error ss k = Some s -> exists P, In P ps /\ b + start ss k <= P) ->
  length (get_string_offsets b ps (map (map Tok) ss)) = length ss /\
  forall k s, nth_error ss k = Some s -> exists p,
    nth_error (get_string_offsets b ps (map (map (@Tok T)) ss)) k = Some (p - (b + start ss k)) /\
    In p ps /\ b + start ss k <= p /\ forall p', In p' ps -> b + start ss k <= p' -> p <= p'.
Proof.
  induction ss as [|s ss IH]; intros b Hex.
  { cbn; split; [reflexivity|]; intros [|k] s; discriminate. }
  cbn [map get_string_offsets].
  destruct (Hex 0 s eq_refl) as [P [HP Hb]]; cbn [start] in Hb; rewrite Nat.add_0_r in Hb.
  destruct (find_first ps b P HI HP Hb) as [p [-> [H1 [H2 H3]]]].
  destruct (IH (b + (length (map (@Tok T) s) + 1))) as [HL HK].
  { intros k s' Hs'; destruct (Hex (S k) s' Hs') as [P' [HP' Hb']]; exists P'; split; [exact HP'|].
    rewrite map_length; cbn [start] in Hb'; lia. }
  split; [cbn [length]; now rewrite HL|].
  intros [|k] s' Hs'; cbn [nth_error start].
  - rewrite Nat.add_0_r; exists p; auto.
  - destruct (HK k s' Hs') as [p' [K1 K2]].
    replace (b + (length s + 1 + start ss k)) with (b + (length (map (@Tok T) s) + 1) + start ss k)
      by (rewrite map_length; lia).
    exists p'; auto.
Qed.
End Offsets.

Theorem find_lcs_multi_ok {T} {E : Teq T} {O : TeqOk T} (ss : list (list T)) : ss <> [] ->
  exists ps l w, find_lcs_multi ss = Some (ps, Some l) /\
    length ps = length ss /\ length w = l /\
    (forall k s p, nth_error ss k = Some s -> nth_error ps k = Some p ->
       occurs_at s w p /\ forall q, occurs_at s w q -> p <= q) /\
    (forall w', (forall s, In s ss -> exists p, occurs_at s w' p) -> length w' <= l).
Proof.
  intros Hne; unfold find_lcs_multi, find_lcs_multiple, concatenate_strings.
  set (cat := concat_from Sep 0 (map (map Tok) ss)).
  destruct (build_ok cat) as [W [h [-> [HA _]]]].
  assert (Hm : forall (A : Type) (a b : A), match map (map (@Tok T)) ss with [] => a | _ :: _ => b end = b).
  { intros; destruct ss; [contradiction|reflexivity]. }
  rewrite Hm, map_length.
  destruct (loop_ok ss W h HA) as [m [mx [best [-> [HG H0]]]]].
  destruct (g_best _ _ _ _ _ _ HG) as [Hbn [Hmx Hbest]].
  rewrite Hmx; destruct (positions_ok ss W h HA best Hbn) as [raw [-> [Hinc Hraw]]].
  assert (Hw : exists w, W best = map Tok w).
  { destruct Hbest as [->|HF]; [|eapply full_tokens; eauto].
    exists []; apply (ai_root _ _ _ HA). }
  destruct Hw as [w HWw].
  (* the best word occurs in every string *)
  assert (Hocc : forall k s, nth_error ss k = Some s -> exists p, occurs_at s w p).
  { intros k s Hs; destruct Hbest as [->|HF].
    - rewrite (proj2 (ai_root _ _ _ HA)) in HWw; destruct w; [|discriminate].
      exists 0; split; [cbn; lia|reflexivity].
    - destruct (HF k) as [e [HO HR]]; [apply nth_error_Some; congruence|].
      rewrite HWw in HO; apply Occ_iff in HO; rewrite map_length in HO; destruct HO as [Hle HO].
      assert (HR' : region ss k (e - length w)).
      { apply (run_region ss k w); [exact HO|]; now replace (e - length w + length w) with e by lia. }
      destruct HR as [s1 [Hs1 HR]], HR' as [s2 [Hs2 HR']].
      assert (s1 = s) by congruence; assert (s2 = s) by congruence; subst s1 s2.
      exists (e - length w - start ss k); apply (occurs_in_string ss k s); [exact Hs|lia|].
      now replace (start ss k + (e - length w - start ss k)) with (e - length w) by lia. }
  assert (Hin : forall k s p, nth_error ss k = Some s -> occurs_at s w p -> In (start ss k + p) raw).
  { intros k s p Hs Hp; apply Hraw; rewrite HWw; apply (occurs_in_string ss k s); auto; apply Hp. }
  destruct (offsets_ok raw Hinc ss 0) as [HL HK].
  { intros k s Hs; destruct (Hocc k s Hs) as [p Hp]; exists (start ss k + p); split; [eauto|lia]. }
  exists (get_string_offsets 0 raw (map (map Tok) ss)), (length (W best)), w.
  split; [reflexivity|]; split; [exact HL|]; split; [rewrite HWw; now rewrite map_length|]; split.
  - intros k s p Hs Hp; destruct (HK k s Hs) as [P [HP [H1 [H2 H3]]]]; rewrite Hp in HP; cbn [Nat.add] in *.
    injection HP as ->.
    destruct (Hocc k s Hs) as [p0 Hp0].
    assert (Hle : P <= start ss k + p0) by (apply H3; [eauto|lia]).
    split.
    + apply (occurs_in_string ss k s); [exact Hs|destruct Hp0; lia|].
      replace (start ss k + (P - start ss k)) with P by lia; rewrite <- HWw; now apply Hraw.
    + intros q Hq; assert (P <= start ss k + q) by (apply H3; [eauto|lia]); lia.
  - intros w' Hw'.
    destruct (find_match_ok W cat h HA (map Tok w') 0 [] (at_root W cat h HA)) as [[j [Hj Hat]]|[_ Hn]];
      cbn [app] in *.
    + pose proof (common_full ss W h w' j Hat Hw') as HF.
      pose proof (known_reach ss W h m mx best HG _ _ _ H0 Hj) as Hk.
      pose proof (g_max _ _ _ _ _ _ HG j Hk HF) as Hle.
      destruct Hat as [_ [Hs _]]; apply suf_length in Hs; rewrite map_length in Hs; lia.
    + exfalso; apply Hn; destruct ss as [|s ss']; [contradiction|].
      destruct (Hw' s (or_introl eq_refl)) as [p Hp].
      apply (occurs_in_string (s :: ss') 0 s w' p eq_refl) in Hp; [|apply Hp].
      apply occurs_Occ in Hp; eexists; exact Hp.
Qed.
