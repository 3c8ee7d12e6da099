(** Theorems C130: how many nodes of the tree are visited when versions are added and when
    the way to a version is looked up. *)
From Coq Require Import ZArith Lia.
From Verif Require Import Base Changesets Serialize Tokenizers SpecTokenizers Tree SpecTree
  Versions SpecVersions SpecLine VersionsInv DbTree SpecDb DbVersions TreeCost TreeCostProofs VersionsSteps PropsSqrt PropsShape.
Local Open Scope nat_scope.

(** The counting copies do what the functions do. *)
Theorem C130_counts : forall K (E : Teq K),
  (forall tag q (s : nodes K), snd (m_change_parent_n tag q s) = m_change_parent tag q s) /\
  (forall s (t : K), snd (m_get_split_n s t) = m_get_split s t) /\
  (forall s (t : K), snd (m_path_to_n s t) = m_path_to s t) /\
  (forall k q (t : table K), snd (d_change_parent_n k q t) = d_change_parent k q t) /\
  (forall t (k : K), snd (d_get_split_n t k) = d_get_split t k).
Proof. exact (fun K E => conj change_erase (conj split_erase (conj path_erase (conj d_change_erase d_split_erase)))). Qed.

Section Theorems.
Context {K : Type} {E : Teq K} {O : TeqOk K}.
Variable re_w : Z -> bool.
Variable tk : tkind.
Notation D := (dict_store K).
Notation C := (db_store K).
Notation M := (memory_tree K).
Notation T := (db_tree K).

(** A history kept with the counting tree is the same history. *)
Theorem C130_same : forall h,
  let v := run re_w tk D D (counted_memory K) v_empty h in let w := run re_w tk D D M v_empty h in
  heads v = heads w /\ diffs v = diffs w /\ snd (tree v) = tree w.
Proof. exact (counted_same re_w tk). Qed.
Theorem C130_same_db : forall place1 place2 h,
  let v := run re_w tk (C place1) (C place2) (counted_db K) v_empty h in let w := run re_w tk (C place1) (C place2) T v_empty h in
  heads v = heads w /\ diffs v = diffs w /\ snd (tree v) = tree w.
Proof. exact (counted_same_db re_w tk). Qed.

(** C130: an add without a base, or one that is refused, changes no parent.  An add on top
    of a head visits [length p - 1] nodes to find the split and exactly [length p + 3] to
    bring the heights up to date (one if there is no split).  [length p] is the number n with
    n(n-1) <= m < n(n+1) for the number m of versions of the line of that head. *)
Theorem C130_add : forall h a, tk <> KLine -> fresh tk (h ++ [a]) ->
  let steps h := fst (tree (run re_w tk D D (counted_memory K) v_empty h)) in
  (match base_of a with None => True | Some x => ~ is_head h x end -> steps (h ++ [a]) = steps h) /\
  (forall x, base_of a = Some x -> is_head h x -> exists p,
     m_get_split_n (fst (m_add (tag_of a) (Some x) (tree (run re_w tk D D M v_empty h)))) x = (length p - 1, Ok (last p x, p)) /\
     length p * (length p - 1) <= 2 * length h /\
     (forall ls, line h x ls -> length p * (length p - 1) <= length ls /\ length ls < length p * (length p + 1)) /\
     steps (h ++ [a]) = steps h + (if length p =? 1 then 1 else length p + 3)).
Proof. exact (steps_memory re_w tk). Qed.
Theorem C130_add_db : forall place1 place2 h a, tk <> KLine -> fresh tk (h ++ [a]) ->
  let steps h := fst (tree (run re_w tk (C place1) (C place2) (counted_db K) v_empty h)) in
  (match base_of a with None => True | Some x => ~ is_head h x end -> steps (h ++ [a]) = steps h) /\
  (forall x, base_of a = Some x -> is_head h x -> exists p,
     d_get_split_n (fst (d_add (tag_of a) (Some x) (tree (run re_w tk (C place1) (C place2) T v_empty h)))) x = (length p - 1, Ok (last p x, p)) /\
     length p * (length p - 1) <= 2 * length h /\
     (forall ls, line h x ls -> length p * (length p - 1) <= length ls /\ length ls < length p * (length p + 1)) /\
     steps (h ++ [a]) = steps h + (if length p =? 1 then 1 else length p + 3)).
Proof. exact (steps_db re_w tk). Qed.
(** all the adds of a history together *)
Theorem C130_total : forall h, tk <> KLine -> fresh tk h ->
  fst (tree (run re_w tk D D (counted_memory K) v_empty h)) <= length h * (Nat.sqrt (2 * length h) + 4).
Proof. exact (total_memory re_w tk). Qed.
Theorem C130_total_db : forall place1 place2 h, tk <> KLine -> fresh tk h ->
  fst (tree (run re_w tk (C place1) (C place2) (counted_db K) v_empty h)) <= length h * (Nat.sqrt (2 * length h) + 4).
Proof. exact (total_db re_w tk). Qed.
(** exactly, if all versions are on one line: about two thirds of the number of versions to
    the power of 3/2 *)
Theorem C130_exact : forall h x ls, tk <> KLine -> fresh tk h -> line h x ls -> length ls = length h ->
  let steps := fst (tree (run re_w tk D D (counted_memory K) v_empty h)) in
  (length h = 1 -> steps = 0) /\
  (2 <= length h -> forall n, n * (n - 1) <= length h <= n * (n + 1) ->
     3 * steps + 21 = (n - 1) * n * (2 * n - 1) + 3 * n * (length h - n * (n - 1)) + 9 * length h).
Proof. exact (line_memory re_w tk). Qed.
Theorem C130_exact_db : forall place1 place2 h x ls, tk <> KLine -> fresh tk h -> line h x ls -> length ls = length h ->
  let steps := fst (tree (run re_w tk (C place1) (C place2) (counted_db K) v_empty h)) in
  (length h = 1 -> steps = 0) /\
  (2 <= length h -> forall n, n * (n - 1) <= length h <= n * (n + 1) ->
     3 * steps + 21 = (n - 1) * n * (2 * n - 1) + 3 * n * (length h - n * (n - 1)) + 9 * length h).
Proof. exact (line_db re_w tk). Qed.
(** looking up the way to a version *)
Theorem C130_path : forall h, tk <> KLine -> fresh tk h -> forall t, added h t -> exists p,
  m_path_to_n (tree (run re_w tk D D M v_empty h)) t = (length p, Ok (Some p)) /\ length p * (length p + 2) <= 8 * length h.
Proof. exact (path_steps re_w tk). Qed.
End Theorems.

(** * Examples *)
(** [thirty] meets the hypotheses (C66_example).  The thirty-first version visits 5 nodes to
    find its split and 9 to update the heights: 6 * 5 <= 30 < 6 * 7.  The thirty before visited
    193, of at most 330; with n = 5 or n = 6 the formula gives 3 * 193 + 21 = 600. *)
Definition steps0 h := fst (tree (run (fun _ => false) KNull (dict_store nat) (dict_store nat) (counted_memory nat) v_empty h)).
Definition steps0_db h := fst (tree (run (fun _ => false) KNull (db_store nat (fun _ => 0)) (db_store nat (fun _ => 0)) (counted_db nat) v_empty h)).
Example C130_example : fresh KNull thirty /\ line thirty 29 (rev (seq 0 30)) /\ length (rev (seq 0 30)) = length thirty /\
  m_get_split_n (fst (m_add 30 (Some 29) thirty_tree)) 29 = (5, Ok (20, [29; 28; 27; 26; 25; 20])) /\
  (steps0 thirty, steps0 (thirty ++ [(30, [30%Z], Some 29)])) = (193, 202) /\
  (steps0_db thirty, steps0_db (thirty ++ [(30, [30%Z], Some 29)])) = (193, 202) /\
  length thirty * (Nat.sqrt (2 * length thirty) + 4) = 330 /\
  m_path_to_n thirty_tree 0 = (10, Ok (Some [29; 28; 27; 26; 25; 20; 12; 6; 2; 0])).
Proof. split; [apply C66_example|]. split; [apply C66_exact_example|]. vm_compute. repeat split; reflexivity. Qed.

Print Assumptions C130_counts.
Print Assumptions C130_same.
Print Assumptions C130_same_db.
Print Assumptions C130_add.
Print Assumptions C130_add_db.
Print Assumptions C130_total.
Print Assumptions C130_total_db.
Print Assumptions C130_exact.
Print Assumptions C130_exact_db.
Print Assumptions C130_path.
