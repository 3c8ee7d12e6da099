(** difflib finds what find_lcs finds with the arguments exchanged. *)
From Verif Require Import Base SpecSeq Automaton AutomatonProofs Difflib.

Section Proofs.
Context {T : Type} {E : Teq T} {O : TeqOk T}.

(** positions of x *)
Fixpoint pos (x : T) (b : list T) (j : nat) : list nat :=
  match b with
  | [] => []
  | y :: b => if teq y x then j :: pos x b (S j) else pos x b (S j)
  end.
Lemma chain_ok b : forall i d x, 
  match dget (chain_b b i d) x with Some l => l | None => [] end =
  match dget d x with Some l => l | None => [] end ++ pos x b i.
Proof.
  induction b as [|y b IH]; intros i d x; cbn [chain_b pos]; [now rewrite app_nil_r|].
  rewrite IH. destruct (teq_spec y x) as [->|N].
  - rewrite dget_dset_same. destruct (dget d x); [now rewrite <- app_assoc|reflexivity].
  - rewrite dget_dset_other by congruence. reflexivity.
Qed.

(** the longest run that ends before i in a and before j in b *)
Fixpoint ending (a b : list T) (i j : nat) : nat :=
  match i, j with
  | S i', S j' => if same_at a b i' j' then S (ending a b i' j') else 0
  | _, _ => 0
  end.
Variables a b : list T.
Notation L := (ending a b).
Lemma L_le i : forall j, L i j <= i /\ L i j <= j.
Proof. induction i as [|i IH]; intros [|j]; cbn [ending]; try lia. destruct (same_at a b i j); [destruct (IH j)|]; lia. Qed.
Lemma same_at_iff i j : same_at a b i j = true <-> exists x, nth_error a i = Some x /\ nth_error b j = Some x.
Proof.
  unfold same_at. destruct (nth_error a i) as [x|], (nth_error b j) as [y|]; split; try discriminate; try (intros (z & P & Q); congruence).
  - intros H. apply teq_ok in H. subst. eauto.
  - intros (z & P & Q). apply teq_ok. congruence.
Qed.
Lemma nth_error_Some_length {A} (l : list A) i x : nth_error l i = Some x -> i < length l.
Proof. intros H. apply nth_error_Some. congruence. Qed.
Lemma slice_S (l : list T) p k x : nth_error l (p + k) = Some x -> slice l p (S k) = slice l p k ++ [x].
Proof.
  unfold slice. intros H. rewrite <- (firstn_skipn k (skipn p l)) at 1.
  assert (G : nth_error (skipn p l) k = Some x) by (rewrite <- H; rewrite <- (firstn_skipn p l) at 2; 
    assert (p <= length l) by (apply nth_error_Some_length in H; lia);
    rewrite nth_error_app2; rewrite firstn_length_le by assumption; [f_equal; lia|lia]).
  clear H. revert k G. induction (skipn p l) as [|y r IH]; intros [|k] G; try discriminate.
  - cbn in *. injection G as ->. reflexivity.
  - cbn [firstn skipn app] in *. cbn in G. rewrite (IH k G). reflexivity.
Qed.
Lemma run_S p q k : common_run a b p q (S k) <-> common_run a b p q k /\ same_at a b (p + k) (q + k) = true.
Proof.
  unfold common_run. rewrite same_at_iff. split.
  - intros (A & B & H).
    destruct (nth_error a (p + k)) as [x|] eqn:X; [|apply nth_error_None in X; lia].
    destruct (nth_error b (q + k)) as [y|] eqn:Y; [|apply nth_error_None in Y; lia].
    rewrite (slice_S a p k x X), (slice_S b q k y Y) in H. apply app_inj_tail in H as [H ->]. repeat split; try lia; eauto.
  - intros ((A & B & H) & x & X & Y). rewrite (slice_S a p k x X), (slice_S b q k x Y), H.
    apply nth_error_Some_length in X. apply nth_error_Some_length in Y. repeat split; lia.
Qed.
Lemma run_left k : forall p q, common_run a b (S p) (S q) k -> same_at a b p q = true -> common_run a b p q (S k).
Proof.
  induction k as [|k IH]; intros p q R S.
  - apply run_S. rewrite !Nat.add_0_r. split; [|exact S]. apply same_at_iff in S as (x & X & Y).
    apply nth_error_Some_length in X. apply nth_error_Some_length in Y. unfold common_run. repeat split; lia || reflexivity.
  - apply run_S in R as [R1 R2]. apply run_S. split; [apply IH; assumption|].
    replace (p + Datatypes.S k) with (Datatypes.S p + k) by lia. replace (q + Datatypes.S k) with (Datatypes.S q + k) by lia. exact R2.
Qed.
Lemma run_L k : forall p q, p + k <= length a -> q + k <= length b -> (common_run a b p q k <-> k <= L (p + k) (q + k)).
Proof.
  induction k as [|k IH]; intros p q A B.
  - split; [lia|]. intros _. unfold common_run. repeat split; lia || reflexivity.
  - rewrite run_S, IH by lia. rewrite <- !plus_n_Sm. cbn [ending]. destruct (same_at a b (p + k) (q + k)).
    + split; [intros [H _]; lia|intros H; split; [lia|reflexivity]].
    + split; [intros [_ H]; discriminate|lia].
Qed.

(** the best block among the runs that were seen: those that end before I in a, and those
    that end at I in a and before J in b *)
Definition seen (m : block) (I J : nat) : Prop :=
  let '(p, q, k) := m in
  (k = 0 -> p = 0 /\ q = 0) /\ (k <> 0 -> p + k < I \/ p + k = I /\ q + k < J) /\ p + k <= length a /\ q + k <= length b /\ k <= L (p + k) (q + k) /\
  forall i j, i <= length a -> j <= length b -> i < I \/ i = I /\ j < J ->
    L i j <= k /\ (L i j = k -> k <> 0 -> p + k < i \/ p + k = i /\ q + k <= j).
Lemma seen_next p q k i j : seen (p, q, k) i j -> L i j = 0 -> seen (p, q, k) i (S j).
Proof.
  intros (Z & Y0 & A & B & C & H) E0. split; [exact Z|]. split; [intros N; specialize (Y0 N); lia|]. do 3 (split; [assumption|]).
  intros i0 j0 A0 B0 D. destruct D as [D|[-> D]]; [apply H; auto|]. destruct (Nat.eq_dec j0 j) as [->|N]; [split; lia|apply H; auto; right; lia].
Qed.
Lemma seen_found p q k0 i j : i <= length a -> j <= length b -> i <> 0 -> j <> 0 -> seen (p, q, k0) i j ->
  seen (if k0 <? L i j then (i - L i j, j - L i j, L i j) else (p, q, k0)) i (S j).
Proof.
  intros AI BJ NI NJ (Z & Y0 & A & B & C & H). destruct (L_le i j) as [l1 l2].
  destruct (Nat.ltb_spec k0 (L i j)) as [G|G]; unfold seen.
  - replace (i - L i j + L i j) with i by lia. replace (j - L i j + L i j) with j by lia.
    split; [lia|]. split; [intros _; right; lia|]. split; [lia|]. split; [lia|]. split; [lia|].
    intros i0 j0 A0 B0 D. destruct (Nat.eq_dec i0 i) as [->|Ni]; [destruct (Nat.eq_dec j0 j) as [->|Nj]; [lia|]|].
    + destruct (H i j0 A0 B0) as [U _]; [lia|]. lia.
    + destruct (H i0 j0 A0 B0) as [U _]; [lia|]. lia.
  - split; [exact Z|]. split; [intros N; specialize (Y0 N); lia|]. do 3 (split; [assumption|]).
    intros i0 j0 A0 B0 D. destruct (Nat.eq_dec i0 i) as [->|Ni]; [destruct (Nat.eq_dec j0 j) as [->|Nj]|].
    + split; [exact G|]. intros U V. specialize (Y0 V). lia.
    + apply (H i j0 A0 B0). lia.
    + apply (H i0 j0 A0 B0). lia.
Qed.
Lemma row_ok i x j2len : nth_error a i = Some x -> (forall j, j < length b -> previous j2len (S j) = L i (S j)) ->
  forall b' j, skipn j b = b' -> j <= length b ->
  forall newj2len best n, seen best (S i) (S j) -> (forall t, previous newj2len (S t) = if t <? j then L (S i) (S t) else 0) ->
  let '(r, best', n') := row i (pos x b' j) j2len newj2len best n in
  seen best' (S i) (S (length b)) /\ (forall t, t < length b -> previous r (S t) = L (S i) (S t)) /\ n' = n + length (pos x b' j).
Proof.
  intros X P. induction b' as [|y b' IH]; intros j Q J newj2len best n Sn R; cbn [pos row].
  - assert (length b <= j) by (apply (f_equal (@length T)) in Q; rewrite skipn_length in Q; cbn in Q; lia).
    assert (j = length b) as -> by lia. cbn [length]. repeat split; try lia; [exact Sn|].
    intros t Ht. rewrite R. destruct (Nat.ltb_spec t (length b)); [reflexivity|lia].
  - assert (JL : j < length b) by (apply (f_equal (@length T)) in Q; rewrite skipn_length in Q; cbn in Q; lia).
    assert (Y : nth_error b j = Some y).
    { rewrite <- (firstn_skipn j b), Q, nth_error_app2; rewrite firstn_length_le by lia; [|lia]. rewrite Nat.sub_diag. reflexivity. }
    assert (Q' : skipn (S j) b = b').
    { rewrite <- (firstn_skipn j b), Q. rewrite skipn_app, firstn_length_le by lia. rewrite skipn_all2 by (rewrite firstn_length_le; lia).
      replace (S j - j) with 1 by lia. reflexivity. }
    assert (SA : same_at a b i j = teq y x).
    { unfold same_at. rewrite X, Y. destruct (teq_spec x y), (teq_spec y x); congruence. }
    assert (LE : L (S i) (S j) = if teq y x then S (L i j) else 0) by (cbn [ending]; rewrite SA; reflexivity).
    destruct (teq y x) eqn:TE.
    + cbn [row length]. cbv zeta.
      assert (PJ : previous j2len j = L i j) by (destruct j as [|j']; [destruct i; reflexivity|apply P; lia]).
      rewrite PJ. replace (L i j + 1) with (S (L i j)) by lia. rewrite <- LE. set (k := L (S i) (S j)) in *.
      match goal with |- context [row i ?p0 j2len ?d0 ?b0 ?n0] =>
        specialize (IH (S j) Q' JL d0 b0 n0); destruct (row i p0 j2len d0 b0 n0) as [[r best'] n'] end.
      destruct IH as (I1 & I2 & I3).
      * destruct best as [[p q] k0]. cbn [snd]. replace (i + 1) with (S i) by lia. replace (j + 1) with (S j) by lia.
        apply seen_found; auto; try lia. apply nth_error_Some_length in X; lia.
      * intros t. cbn [previous]. destruct (Nat.eq_dec t j) as [->|N].
        -- rewrite dget_dset_same. destruct (Nat.ltb_spec j (S j)); [reflexivity|lia].
        -- rewrite dget_dset_other by congruence. specialize (R t). cbn [previous] in R. rewrite R.
           destruct (Nat.ltb_spec t j), (Nat.ltb_spec t (S j)); try reflexivity; lia.
      * split; [exact I1|]. split; [exact I2|]. lia.
    + specialize (IH (S j) Q' JL newj2len best n). apply IH.
      * destruct best as [[p q] k]. apply seen_next; [exact Sn|exact LE].
      * intros t. rewrite R. destruct (Nat.ltb_spec t j), (Nat.ltb_spec t (S j)); try reflexivity; try lia.
        replace t with j by lia. symmetry. exact LE.
Qed.
Lemma seen_row m i : seen m i (S (length b)) -> seen m (S i) 1.
Proof.
  destruct m as [[p q] k]. intros (Z & Y0 & A & B & C & H). split; [exact Z|]. split; [intros N; specialize (Y0 N); lia|].
  do 3 (split; [assumption|]). intros i0 j0 A0 B0 D. destruct (Nat.eq_dec j0 0) as [->|N].
  - assert (L i0 0 = 0) as -> by (destruct i0; reflexivity). split; [lia|intros; lia].
  - apply H; auto. lia.
Qed.
Definition pairs_from (a' : list T) : nat := fold_right (fun x n => length (pos x b 0) + n) 0 a'.
Lemma rows_ok : forall a' i, skipn i a = a' -> i <= length a ->
  forall j2len best n, seen best (S i) 1 -> (forall j, j < length b -> previous j2len (S j) = L i (S j)) ->
  let '(best', n') := rows a' i (chain_b b 0 []) j2len best n in
  seen best' (S (length a)) 1 /\ n' = n + pairs_from a'.
Proof.
  induction a' as [|x a' IH]; intros i Q AI j2len best n Sn P; cbn [rows pairs_from fold_right].
  - assert (length a <= i) by (apply (f_equal (@length T)) in Q; rewrite skipn_length in Q; cbn in Q; lia).
    assert (i = length a) as -> by lia. split; [exact Sn|lia].
  - assert (AL : i < length a) by (apply (f_equal (@length T)) in Q; rewrite skipn_length in Q; cbn in Q; lia).
    assert (X : nth_error a i = Some x).
    { rewrite <- (firstn_skipn i a), Q, nth_error_app2; rewrite firstn_length_le by lia; [|lia]. rewrite Nat.sub_diag. reflexivity. }
    assert (Q' : skipn (S i) a = a').
    { rewrite <- (firstn_skipn i a), Q. rewrite skipn_app, firstn_length_le by lia. rewrite skipn_all2 by (rewrite firstn_length_le; lia).
      replace (S i - i) with 1 by lia. reflexivity. }
    pose proof (chain_ok b 0 [] x) as CH. cbn [dget app] in CH. rewrite CH.
    pose proof (row_ok i x j2len X P b 0 eq_refl (Nat.le_0_l _) [] best n Sn) as R.
    destruct (row i (pos x b 0) j2len [] best n) as [[r best'] n'].
    destruct R as (R1 & R2 & R3); [intros t; reflexivity|].
    specialize (IH (S i) Q' AL r best' n' (seen_row _ _ R1) R2).
    destruct (rows a' (S i) (chain_b b 0 []) r best' n') as [b2 n2]. destruct IH as [I1 I2]. split; [exact I1|].
    unfold pairs_from in I2. lia.
Qed.
Lemma seen_start : seen (0, 0, 0) 1 1.
Proof.
  unfold seen. split; [auto|]. split; [contradiction|]. do 2 (split; [lia|]). split; [cbn; lia|].
  intros i j _ _ D. assert (L i j = 0) as -> by (destruct i as [|[|]], j as [|]; cbn; lia || reflexivity). split; [lia|contradiction].
Qed.
Lemma right_done fuel p q k : L (p + k + 1) (q + k + 1) <= L (p + k) (q + k) -> extend_right fuel a b (p, q, k) = (p, q, k).
Proof.
  intros H. destruct fuel; [reflexivity|]. cbn [extend_right]. rewrite !Nat.add_1_r in H. cbn [ending] in H.
  destruct (same_at a b (p + k) (q + k)); [lia|]. now rewrite andb_false_r.
Qed.
Theorem difflib_first : forall m n, difflib_lcs a b = (m, n) ->
  n = pairs_from a /\ let '(p, q, k) := m in is_first_lcs b a q p k.
Proof.
  intros m n. unfold difflib_lcs. pose proof (rows_ok a 0 eq_refl (Nat.le_0_l _) [] (0, 0, 0) 0 seen_start) as R.
  destruct (rows a 0 (chain_b b 0 []) [] (0, 0, 0) 0) as [[[p q] k] n'].
  destruct R as [(Z & _ & A & B & C & H) ->]; [intros j _; reflexivity|].
  assert (M : forall i j, i <= length a -> j <= length b -> L i j <= k) by (intros i j I J; apply (H i j I J); lia).
  assert (K : L (p + k) (q + k) = k) by (specialize (M (p + k) (q + k) A B); lia).
  assert (XL : extend_left (length a) a b (p, q, k) = (p, q, k)).
  { destruct (length a) as [|f] eqn:F; [reflexivity|]. cbn [extend_left]. rewrite <- F in *.
    destruct (Nat.ltb_spec 0 p), (Nat.ltb_spec 0 q); try reflexivity. cbn [andb]. destruct (same_at a b (p - 1) (q - 1)) eqn:SA; [|reflexivity].
    exfalso. assert (D : common_run a b (p - 1) (q - 1) (S k)).
    { apply run_left; [|exact SA]. replace (S (p - 1)) with p by lia. replace (S (q - 1)) with q by lia. apply run_L; lia. }
    assert (p - 1 + S k <= length a /\ q - 1 + S k <= length b) as [U V] by lia.
    apply run_L in D; [|exact U|exact V]. specialize (M _ _ U V). lia. }
  rewrite XL, right_done.
  2: { destruct (le_lt_dec (p + k + 1) (length a)) as [U|U]; [destruct (le_lt_dec (q + k + 1) (length b)) as [V|V]|].
       - specialize (M _ _ U V). lia.
       - rewrite !Nat.add_1_r. cbn [ending]. destruct (same_at a b (p + k) (q + k)) eqn:SA; [|lia].
         apply same_at_iff in SA as (x & _ & Y). apply nth_error_Some_length in Y. lia.
       - rewrite !Nat.add_1_r. cbn [ending]. destruct (same_at a b (p + k) (q + k)) eqn:SA; [|lia].
         apply same_at_iff in SA as (x & X & _). apply nth_error_Some_length in X. lia. }
  intros Q. injection Q as <- <-. split; [reflexivity|].
  assert (SW : forall u v t, common_run b a u v t <-> common_run a b v u t).
  { intros u v t. unfold common_run. split; intros (P1 & P2 & P3); repeat split; auto. }
  split; [split|split; [|split]].
  - apply SW, run_L; auto.
  - intros qa qb t R. apply SW in R. assert (U := R). destruct U as (U & V & _). apply run_L in R; [|exact U|exact V]. specialize (M _ _ U V). lia.
  - intros N. destruct (Z N). auto.
  - intros qa qb R. apply SW in R. assert (U := R). destruct U as (U & V & _). apply run_L in R; [|exact U|exact V].
    destruct (Nat.eq_dec k 0) as [N|N]; [destruct (Z N); lia|].
    destruct (H _ _ U V) as [H1 H2]; [lia|]. lia.
  - intros qa R. apply SW in R. assert (U := R). destruct U as (U & V & _). apply run_L in R; [|exact U|exact V].
    destruct (Nat.eq_dec k 0) as [N|N]; [destruct (Z N); lia|].
    destruct (H _ _ U V) as [H1 H2]; [lia|]. lia.
Qed.
End Proofs.
