(** What the two methods of difflib_benchmark.py have to do with each other. *)
From Verif Require Import Base SpecSeq Automaton AutomatonProofs AutomatonLcs DiffCost DiffCostProofs Difflib DifflibProofs.

Section Agree.
Context {T : Type} {E : Teq T} {O : TeqOk T}.

Theorem difflib_iff (a b : list T) p q k : fst (difflib_lcs a b) = (p, q, k) <-> is_first_lcs b a q p k.
Proof.
  destruct (difflib_lcs a b) as [[[p' q'] k'] n] eqn:D. pose proof (difflib_first a b _ _ D) as [_ F]. cbn [fst]. split.
  - intros Q. injection Q as -> -> ->. exact F.
  - intros G. destruct (is_first_lcs_unique _ _ _ _ _ _ _ _ F G) as (-> & -> & ->). reflexivity.
Qed.
Theorem difflib_exchanged (a b : list T) i j k : find_lcs a b = Some (i, j, k) <-> fst (difflib_lcs b a) = (j, i, k).
Proof. now rewrite difflib_iff, <- find_lcs_iff. Qed.
Lemma run_swap (a b : list T) u v t : common_run b a u v t <-> common_run a b v u t.
Proof. unfold common_run. split; intros (P1 & P2 & P3); auto. Qed.
Theorem difflib_length (a b : list T) i j k : find_lcs a b = Some (i, j, k) -> snd (fst (difflib_lcs a b)) = k.
Proof.
  intros F. apply find_lcs_iff in F as ((R & M) & _).
  destruct (fst (difflib_lcs a b)) as [[p q] k'] eqn:D. apply difflib_iff in D as ((R' & M') & _). cbn [snd].
  apply run_swap in R, R'. apply M in R'. apply M' in R. lia.
Qed.
Theorem difflib_same (a b : list T) i j k : find_lcs a b = Some (i, j, k) ->
  (fst (difflib_lcs a b) = (i, j, k) <-> forall qa qb, common_run a b qa qb k -> i <= qa).
Proof.
  intros F. apply find_lcs_iff in F as ((R & M) & Z & F1 & F2). rewrite difflib_iff. split.
  - intros (_ & _ & G1 & _) qa qb H. apply (G1 qb). now apply run_swap.
  - intros H. split; [split|split; [|split]].
    + now apply run_swap.
    + intros qa qb t U. apply run_swap in U. eauto.
    + intros N. destruct (Z N). auto.
    + intros qa qb U. apply run_swap in U. eauto.
    + intros qa U. apply run_swap in U. eauto.
Qed.
(** pairs of equal tokens *)
Lemma pos_count (x : T) b : forall j, length (pos x b j) = length (filter (fun p => teq (fst p) (snd p)) (map (fun y => (x, y)) b)).
Proof.
  induction b as [|y b IH]; intros j; cbn [pos map filter fst snd]; [reflexivity|].
  destruct (teq_spec y x), (teq_spec x y); try congruence; cbn [length]; now rewrite IH.
Qed.
Lemma pairs_count (b a : list T) : pairs_from b a = length (filter (fun p => teq (fst p) (snd p)) (list_prod a b)).
Proof.
  induction a as [|x a IH]; [reflexivity|]. cbn [pairs_from fold_right list_prod]. rewrite filter_app, app_length, <- pos_count with (j := 0).
  unfold pairs_from in IH. now rewrite IH.
Qed.
Theorem difflib_count (a b : list T) :
  snd (difflib_lcs a b) = length (filter (fun p => teq (fst p) (snd p)) (list_prod a b)).
Proof.
  destruct (difflib_lcs a b) as [m n] eqn:D. destruct (difflib_first a b _ _ D) as [-> _]. apply pairs_count.
Qed.
Lemma filter_const (x : T) n m : length (filter (fun p => teq (fst p) (snd p)) (list_prod (repeat x n) (repeat x m))) = n * m.
Proof.
  induction n as [|n IH]; [reflexivity|]. cbn [repeat list_prod]. rewrite filter_app, app_length, IH. cbn [Nat.mul]. f_equal.
  clear IH. induction m as [|m IH]; [reflexivity|]. cbn [repeat map filter fst snd]. rewrite teq_refl. cbn [length]. now rewrite IH.
Qed.
Theorem difflib_constant (x : T) n m : snd (difflib_lcs (repeat x n) (repeat x m)) = n * m.
Proof. rewrite difflib_count. apply filter_const. Qed.
(** a sequence against itself: at least n^2 / s pairs with s different tokens *)
Definition count_in (x : T) (l : list T) : nat := length (filter (teq x) l).
Lemma pairs_split (a b : list T) : length (filter (fun p => teq (fst p) (snd p)) (list_prod a b)) = list_sum (map (fun x => count_in x b) a).
Proof.
  induction a as [|x a IH]; [reflexivity|]. cbn [list_prod map list_sum fold_right]. rewrite filter_app, app_length, IH. f_equal.
  unfold count_in. clear. induction b as [|y b IH]; [reflexivity|]. cbn [map filter fst snd]. destruct (teq x y); cbn [length]; now rewrite IH.
Qed.
Lemma sum_by_letter (f : T -> nat) (al : list T) : NoDup al -> forall a, incl a al ->
  list_sum (map f a) = list_sum (map (fun x => count_in x a * f x) al).
Proof.
  intros N. induction a as [|y a IH]; intros I.
  - cbn. clear. induction al; [reflexivity|]. cbn [map list_sum fold_right]. unfold list_sum in *. rewrite <- IHal. reflexivity.
  - assert (Iy : In y al) by (apply I; now left). cbn [map list_sum fold_right]. fold (list_sum (map f a)). rewrite IH by (intros z Hz; apply I; now right).
    clear IH I. induction al as [|z al IH]; [destruct Iy|]. inversion N as [|? ? NI ND]; subst.
    cbn [map list_sum fold_right]. fold (list_sum (map (fun x => count_in x a * f x) al)). fold (list_sum (map (fun x => count_in x (y :: a) * f x) al)).
    unfold count_in at 3. cbn [filter]. destruct (teq_spec z y) as [->|Ne].
    + cbn [length]. fold (count_in y a). cut (list_sum (map (fun x => count_in x (y :: a) * f x) al) = list_sum (map (fun x => count_in x a * f x) al)); [lia|].
      f_equal. apply map_ext_in. intros x Hx. unfold count_in. cbn [filter]. destruct (teq_spec x y); [subst; contradiction|reflexivity].
    + fold (count_in z a). rewrite <- IH; [lia|assumption|]. destruct Iy; [congruence|assumption].
Qed.
Lemma square_sum (l : list nat) : list_sum l * list_sum l <= length l * list_sum (map (fun c => c * c) l).
Proof.
  induction l as [|c l IH]; [reflexivity|]. cbn [list_sum fold_right length map]. fold (list_sum l). fold (list_sum (map (fun c => c * c) l)).
  assert (X : 2 * c * list_sum l <= length l * (c * c) + list_sum (map (fun c => c * c) l)).
  { clear IH. induction l as [|d l IH]; [cbn; lia|]. cbn [list_sum fold_right length map]. fold (list_sum l). fold (list_sum (map (fun c => c * c) l)).
    assert (2 * c * d <= c * c + d * d) by (destruct (Nat.le_ge_cases c d); nia). nia. }
  nia.
Qed.
Theorem difflib_self (al a : list T) : NoDup al -> incl a al -> length a * length a <= length al * snd (difflib_lcs a a).
Proof.
  intros N I. rewrite difflib_count, pairs_split, (sum_by_letter (fun x => count_in x a) al N a I).
  rewrite <- (map_map (fun x => count_in x a) (fun c => c * c)). eapply Nat.le_trans; [|rewrite <- (map_length (fun x => count_in x a) al) at 1; apply square_sum].
  cut (length a = list_sum (map (fun x => count_in x a) al)); [intros ->; lia|].
  pose proof (sum_by_letter (fun _ => 1) al N a I) as S1.
  assert (S2 : forall l : list T, list_sum (map (fun _ => 1) l) = length l) by (induction l; [reflexivity|]; cbn [map list_sum fold_right length]; unfold list_sum in *; lia).
  rewrite S2 in S1. rewrite S1. f_equal. apply map_ext. intros; lia.
Qed.
End Agree.
