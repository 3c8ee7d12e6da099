(** Theorem C66, exactly: the longest way of a retrieval and the way of an add are
    determined by the number of versions a head was made from. *)
From Coq Require Import ZArith Lia.
From Verif Require Import Base Changesets Serialize Tokenizers SpecTokenizers Tree SpecTree
  Versions SpecVersions SpecLine VersionsInv VersionsProofs DbTree SpecDb DbVersions VersionsShape PropsSqrt.
Local Open Scope nat_scope.

Section Theorems.
Context {K : Type} {E : Teq K} {O : TeqOk K}.
Variable re_w : Z -> bool.
Variable tk : tkind.
Notation D := (dict_store K).
Notation C := (db_store K).
Notation M := (memory_tree K).
Notation T := (db_tree K).

(** C66: every version is on the line of one head; [d] is the largest number of
    versions on a way from a head to a version of its line *)
Theorem C66_exact_paths : forall h, tk <> KLine -> fresh tk h ->
  let s := tree (run re_w tk D D M v_empty h) in
  (forall t, added h t -> exists x ls, is_head h x /\ line h x ls /\ In t ls) /\
  (forall x ls, is_head h x -> line h x ls -> NoDup ls /\ exists d,
    (d + 1) * (d + 1) <= 4 * length ls + 1 /\ 4 * length ls + 1 < (d + 2) * (d + 2) /\
    (forall t, In t ls -> exists p, m_path_to s t = Ok (Some (x :: p)) /\ length (x :: p) <= d) /\
    (exists t p, In t ls /\ m_path_to s t = Ok (Some (x :: p)) /\ length (x :: p) = d) /\
    (exists p, m_get_split s x = Ok (last p x, p) /\ length p = Nat.div2 d + 1)).
Proof. exact (exact_memory re_w tk). Qed.
(** the same on a database *)
Theorem C66_exact_paths_db : forall place1 place2 h, tk <> KLine -> fresh tk h ->
  let s := tree (run re_w tk (C place1) (C place2) T v_empty h) in
  (forall t, added h t -> exists x ls, is_head h x /\ line h x ls /\ In t ls) /\
  (forall x ls, is_head h x -> line h x ls -> NoDup ls /\ exists d,
    (d + 1) * (d + 1) <= 4 * length ls + 1 /\ 4 * length ls + 1 < (d + 2) * (d + 2) /\
    (forall t, In t ls -> exists p, d_path_to s t = Ok (Some (x :: p)) /\ length (x :: p) <= d) /\
    (exists t p, In t ls /\ d_path_to s t = Ok (Some (x :: p)) /\ length (x :: p) = d) /\
    (exists p, d_get_split s x = Ok (last p x, p) /\ length p = Nat.div2 d + 1)).
Proof. exact (exact_db re_w tk). Qed.
End Theorems.

(** * Examples *)
(** the line of the last of the thirty versions of PropsSqrt.v has all thirty; by
    the theorem the longest way has ten versions, and it does *)
Definition each_on_the_last (n : nat) : list (nat * list Z * option nat) :=
  map (fun i => (i, [Z.of_nat i], match i with 0 => None | S j => Some j end)) (seq 0 n).
Example C66_exact_example : fresh KNull thirty /\ is_head thirty 29 /\ line thirty 29 (rev (seq 0 30)) /\
  (forall d, (d + 1) * (d + 1) <= 4 * length (rev (seq 0 30)) + 1 -> 4 * length (rev (seq 0 30)) + 1 < (d + 2) * (d + 2) -> d = 10) /\
  fold_right max 0 (map (fun t => match m_path_to thirty_tree t with Ok (Some p) => length p | _ => 0 end) (seq 0 30)) = 10 /\
  m_get_split thirty_tree 29 = Ok (20, [29; 28; 27; 26; 25; 20]) /\ Nat.div2 10 + 1 = 6.
Proof.
  split; [apply C66_example|]. rewrite rev_length, seq_length.
  assert (A : forall n, is_head (each_on_the_last (S n)) n /\ line (each_on_the_last (S n)) n (rev (seq 0 (S n)))).
  { assert (Q : forall n, each_on_the_last (S n) = each_on_the_last n ++ [(n, [Z.of_nat n], match n with 0 => None | S j => Some j end)]).
    { intros n; unfold each_on_the_last. rewrite seq_S, map_app; reflexivity. }
    assert (R : forall n, rev (seq 0 (S n)) = n :: rev (seq 0 n)) by (intros n; rewrite seq_S, rev_app_distr; reflexivity).
    induction n as [|n [IH1 IH2]]; rewrite Q, R.
    - split; [exists [], [Z.of_nat 0], None, []; split; [reflexivity|intros []]|].
      apply (line_first (each_on_the_last 0) (0, [Z.of_nat 0], None)). exact Logic.I.
    - split; [eexists _, _, _, []; split; [reflexivity|intros []]|].
      apply (line_next (each_on_the_last (S n)) (S n, [Z.of_nat (S n)], Some n) n); [reflexivity|exact IH1|exact IH2]. }
  destruct (A 29) as [A1 A2]. split; [exact A1|split; [exact A2|split; [intros; nia|]]].
  split; [vm_compute; reflexivity|split; [vm_compute; reflexivity|reflexivity]].
Qed.

Print Assumptions C66_exact_paths.
Print Assumptions C66_exact_paths_db.
