(** C133: lines of versions do not influence each other. *)
From Coq Require Import ZArith Lia Permutation.
From Verif Require Import Base Changesets Serialize Tokenizers SpecTokenizers Tree Versions SpecVersions SpecLine SpecLineage
  SpecAlone DbTree SpecDb DbVersions VersionsMore VersionsOrder VersionsAlone PropsVersions.
Local Open Scope nat_scope.

Section Theorems.
Context {K : Type} {E : Teq K} {O : TeqOk K}.
Variable re_w : Z -> bool.
Variable tk : tkind.
Notation D := (dict_store K).
Notation C := (db_store K).
Notation M := (memory_tree K).
Notation T := (db_tree K).

(** C133: when the same versions are added in two orders, each of which adds to heads only,
    the stores have the same heads, the same diffs, the same paths and splits, and give the
    same answers *)
Theorem C133_order : forall h h', tk <> KLine -> valid tk h -> valid tk h' -> Permutation h h' ->
  let v := run re_w tk D D M v_empty h in let v' := run re_w tk D D M v_empty h' in
  (forall t, dget (heads v) t = dget (heads v') t) /\ (forall t, dget (diffs v) t = dget (diffs v') t) /\
  (forall t, get re_w tk D D M v t = get re_w tk D D M v' t) /\
  (forall t, version_info D D M v t = version_info D D M v' t) /\
  (forall t, added h t -> m_path_to (tree v) t = m_path_to (tree v') t) /\
  (forall x, is_head h x -> m_get_split (tree v) x = m_get_split (tree v') x).
Proof. exact (fun h h' Hk V V' P => order_memory re_w tk h h' Hk (proj1 V) P (valid_same tk h h' V V' P)). Qed.
Theorem C133_order_db : forall place1 place2 h h', tk <> KLine -> valid tk h -> valid tk h' -> Permutation h h' ->
  let v := run re_w tk (C place1) (C place2) T v_empty h in let v' := run re_w tk (C place1) (C place2) T v_empty h' in
  (forall t, s_get (C place1) (heads v) t = s_get (C place1) (heads v') t) /\
  (forall t, s_get (C place2) (diffs v) t = s_get (C place2) (diffs v') t) /\
  (forall t, get re_w tk (C place1) (C place2) T v t = get re_w tk (C place1) (C place2) T v' t) /\
  (forall t, added h t -> d_path_to (tree v) t = d_path_to (tree v') t) /\
  (forall x, is_head h x -> d_get_split (tree v) x = d_get_split (tree v') x).
Proof. exact (fun p1 p2 h h' Hk V V' P => order_db re_w tk p1 p2 h h' Hk (proj1 V) P (valid_same tk h h' V V' P)). Qed.
(** With adds that raise among them, it is enough that the same versions were made from the
    same heads. *)
Theorem C133_raising : forall h h', tk <> KLine -> fresh tk h -> Permutation h h' -> (forall x y, built_on h x y <-> built_on h' x y) ->
  let v := run re_w tk D D M v_empty h in let v' := run re_w tk D D M v_empty h' in
  (forall t, dget (heads v) t = dget (heads v') t) /\ (forall t, dget (diffs v) t = dget (diffs v') t) /\
  (forall t, get re_w tk D D M v t = get re_w tk D D M v' t) /\
  (forall t, version_info D D M v t = version_info D D M v' t) /\
  (forall t, added h t -> m_path_to (tree v) t = m_path_to (tree v') t) /\
  (forall x, is_head h x -> m_get_split (tree v) x = m_get_split (tree v') x).
Proof. exact (order_memory re_w tk). Qed.
(** neighbours that are not made from each other can be exchanged *)
Theorem C133_exchange : forall (pre : list (adding K)) a b post,
  valid tk (pre ++ a :: b :: post) -> base_of b <> Some (tag_of a) -> valid tk (pre ++ b :: a :: post).
Proof. exact (exchange tk). Qed.

(** C133: everything kept for a line is what would be kept if nothing but its own versions had
    been added *)
Theorem C133_alone : forall h x ls, tk <> KLine -> fresh tk h -> is_head h x -> line h x ls ->
  let v := run re_w tk D D M v_empty h in let v' := run re_w tk D D M v_empty (alone h ls) in
  (forall t, In t ls -> dget (heads v) t = dget (heads v') t /\ dget (diffs v) t = dget (diffs v') t /\
     m_path_to (tree v) t = m_path_to (tree v') t /\ version_info D D M v t = version_info D D M v' t) /\
  m_get_split (tree v) x = m_get_split (tree v') x.
Proof. exact (alone_memory re_w tk). Qed.
Theorem C133_alone_db : forall place1 place2 h x ls, tk <> KLine -> fresh tk h -> is_head h x -> line h x ls ->
  let v := run re_w tk (C place1) (C place2) T v_empty h in let v' := run re_w tk (C place1) (C place2) T v_empty (alone h ls) in
  (forall t, In t ls -> s_get (C place1) (heads v) t = s_get (C place1) (heads v') t /\ s_get (C place2) (diffs v) t = s_get (C place2) (diffs v') t /\
     d_path_to (tree v) t = d_path_to (tree v') t) /\
  d_get_split (tree v) x = d_get_split (tree v') x.
Proof. exact (alone_db re_w tk). Qed.
(** [alone] keeps the adds of the line, as they were and in their order *)
Theorem C133_alone_is : forall (h : list (adding K)) ls,
  (forall a, In a (alone h ls) <-> In a h /\ In (tag_of a) ls) /\
  (forall h', alone (h ++ h') ls = alone h ls ++ alone h' ls).
Proof. exact (fun h ls => conj (in_alone h ls) (fun h' => alone_app h h' ls)). Qed.
End Theorems.

(** Which of two versions is made from a head is a matter of order: two adds to the same
    head cannot be exchanged. *)
Theorem C133_same_line_refuted : exists h h' : list (adding nat), fresh KNull h /\ Permutation h h' /\
  exists t, dget (diffs (run (fun _ => false) KNull (dict_store nat) (dict_store nat) (memory_tree nat) v_empty h)) t <>
            dget (diffs (run (fun _ => false) KNull (dict_store nat) (dict_store nat) (memory_tree nat) v_empty h')) t.
Proof.
  exists [(1, [65%Z], None); (2, [65; 66]%Z, Some 1); (3, [67%Z], Some 1)], [(1, [65%Z], None); (3, [67%Z], Some 1); (2, [65; 66]%Z, Some 1)].
  split; [|split; [apply perm_skip, perm_swap|exists 1; vm_compute; discriminate]].
  split; [repeat constructor; cbn; intuition lia|repeat constructor; cbn; try discriminate; lia].
Qed.

(** * Examples *)
(** odd and even versions in two lines: in turns, and one line after the other *)
Definition in_turns : list (adding nat) :=
  [(1, [65]%Z, None); (2, [97]%Z, None); (3, [65; 66]%Z, Some 1); (4, [97; 98]%Z, Some 2); (5, [65; 67]%Z, Some 3);
   (6, [98]%Z, Some 4); (7, [67; 67]%Z, Some 5); (9, [67]%Z, Some 7); (8, [99]%Z, Some 6)].
Definition after_another : list (adding nat) :=
  [(2, [97]%Z, None); (4, [97; 98]%Z, Some 2); (6, [98]%Z, Some 4); (8, [99]%Z, Some 6);
   (1, [65]%Z, None); (3, [65; 66]%Z, Some 1); (5, [65; 67]%Z, Some 3); (7, [67; 67]%Z, Some 5); (9, [67]%Z, Some 7)].
Ltac head_at pre h t :=
  match h with
  | (t, ?b, ?base) :: ?post => exists pre, b, base, post; split; [reflexivity|cbn; intuition discriminate]
  | ?a :: ?r => let p := eval cbn in (pre ++ [a]) in head_at p r t
  end.
Ltac any_head := first [exact Logic.I | cbn [base_of snd]; match goal with |- is_head ?h ?t => let h' := eval cbn in h in head_at (@nil (adding nat)) h' t end].
Example C133_order_example : valid KNull in_turns /\ valid KNull after_another /\ Permutation in_turns after_another.
Proof.
  split; [unfold in_turns; valid_tac; any_head|split; [unfold after_another; valid_tac; any_head|]].
  apply NoDup_Permutation; [repeat constructor; cbn; intuition discriminate|repeat constructor; cbn; intuition discriminate|].
  intros a. cbn. tauto.
Qed.
Definition kept h := run (fun _ => false) KNull (dict_store nat) (dict_store nat) (memory_tree nat) v_empty h.
(** what the dictionaries and the tree keep besides is not the same: the order of the keys and
    the numbers of the nodes *)
Example C133_order_kept : map (dget (heads (kept in_turns))) (seq 0 10) = map (dget (heads (kept after_another))) (seq 0 10) /\
  m_path_to (tree (kept in_turns)) 1 = Ok (Some [9; 5; 1]) /\ m_get_split (tree (kept after_another)) 9 = Ok (7, [9; 7]) /\
  map fst (heads (kept in_turns)) <> map fst (heads (kept after_another)) /\ tree (kept in_turns) <> tree (kept after_another).
Proof. vm_compute. repeat split; discriminate. Qed.
Example C133_exchange_example : valid KNull (firstn 3 in_turns ++ (5, [65; 67]%Z, Some 3) :: (4, [97; 98]%Z, Some 2) :: skipn 5 in_turns).
Proof. apply C133_exchange; [exact (proj1 C133_order_example)|discriminate]. Qed.
Example C133_alone_example : fresh KNull in_turns /\ is_head in_turns 8 /\ line in_turns 8 [8; 6; 4; 2] /\
  alone in_turns [8; 6; 4; 2] = firstn 4 after_another.
Proof.
  split; [exact (proj1 (proj1 C133_order_example))|split; [unfold in_turns; any_head|split; [|reflexivity]]].
  apply (line_next (firstn 8 in_turns) (8, [99]%Z, Some 6) 6); [reflexivity|cbn; any_head|].
  apply (line_keep (firstn 7 in_turns) (9, [67]%Z, Some 7)); [discriminate|].
  apply (line_keep (firstn 6 in_turns) (7, [67; 67]%Z, Some 5)); [discriminate|].
  apply (line_next (firstn 5 in_turns) (6, [98]%Z, Some 4) 4); [reflexivity|cbn; any_head|].
  apply (line_keep (firstn 4 in_turns) (5, [65; 67]%Z, Some 3)); [discriminate|].
  apply (line_next (firstn 3 in_turns) (4, [97; 98]%Z, Some 2) 2); [reflexivity|cbn; any_head|].
  apply (line_keep (firstn 2 in_turns) (3, [65; 66]%Z, Some 1)); [discriminate|].
  exact (line_first (firstn 1 in_turns) (2, [97]%Z, None) Logic.I).
Qed.

Print Assumptions C133_order.
Print Assumptions C133_order_db.
Print Assumptions C133_raising.
Print Assumptions C133_exchange.
Print Assumptions C133_alone.
Print Assumptions C133_alone_db.
Print Assumptions C133_alone_is.
Print Assumptions C133_same_line_refuted.
