(** Theorems C40-C43 (the database-backed tree and collections). *)
From Coq Require Import ZArith Lia Permutation.
From Verif Require Import Base Changesets Serialize Tokenizers SpecTokenizers Tree SpecTree TreeProofs TreeExact
  Versions SpecVersions VersionsInv VersionsProofs VersionsMore PropsVersions DbTree DbTreeProofs SpecDb DbVersions DbTreeMore.
Local Open Scope nat_scope.

Section Theorems.
Context {K : Type} {E : Teq K} {O : TeqOk K}.
Variable re_w : Z -> bool.
Variable tk : tkind.
Notation D := (dict_store K).
Notation C := (db_store K).
Notation M := (memory_tree K).
Notation T := (db_tree K).

(** C40: under Versions, on dicts or on DBCollections, a DBTree answers like a
    MemoryTree.  (For a tag that was never added path_to gives the empty path where
    MemoryTree gives None; Versions treats both alike, see [C40_versions_same].) *)
Theorem C40_trees_interchangeable : forall place1 place2 h k, tk <> KLine -> fresh tk h ->
  let m := tree (run re_w tk D D M v_empty h) in
  let d := tree (run re_w tk D D T v_empty h) in
  let c := tree (run re_w tk (C place1) (C place2) T v_empty h) in
  (m_contains m k = d_contains d k /\ m_contains m k = d_contains c k) /\
  (added h k ->
    (m_base_version m k = d_base_version d k /\ m_path_to m k = d_path_to d k /\ m_get_split m k = d_get_split d k) /\
    (m_base_version m k = d_base_version c k /\ m_path_to m k = d_path_to c k /\ m_get_split m k = d_get_split c k)).
Proof. exact (both_interchangeable re_w tk). Qed.
(** and so do Versions: same contents for every tag, same membership, and an add
    succeeds on one iff it succeeds on the other *)
Theorem C40_versions_same : forall place1 place2 h, tk <> KLine -> fresh tk h ->
  let m := run re_w tk D D M v_empty h in
  let c := run re_w tk (C place1) (C place2) T v_empty h in
  (forall t, get re_w tk (C place1) (C place2) T c t = get re_w tk D D M m t) /\
  (forall t, contains (C place1) (C place2) T c t = contains D D M m t) /\
  (forall a, fresh tk (h ++ [a]) ->
     (add_result re_w tk (C place1) (C place2) T c a = Ok tt <-> add_result re_w tk D D M m a = Ok tt)).
Proof. exact (versions_same re_w tk). Qed.

(** C41, what holds: a DBTree answers like a MemoryTree, and keeps the same heights,
    after all calls for which its two slots do.  What is missing: other calls, see
    [C41_slots_refuted]. *)
Theorem C41_protocol_partial : forall l, always sensible l -> always slots_do l ->
  let m := tree_run M l in
  let d := tree_run T l in
  forall k, d_contains d k = m_contains m k /\
  (m_contains m k = true ->
   d_base_version d k = m_base_version m k /\ d_path_to d k = m_path_to m k /\ d_get_split d k = m_get_split m k /\
   forall i r n, nth_error d i = Some r -> r_tag r = k -> dget m k = Some n -> r_height r = height n).
Proof. exact (fun l H1 H2 => protocol_answers l (conj H1 H2)). Qed.

(** C41, the other calls: adding a tag that exists fails on a DBTree and changes
    nothing, while a MemoryTree replaces the node by a new root with the new base; *)
Theorem C41_existing_tag : forall d m k base,
  (d_contains d k = true -> d_add k base d = (d, Err IntegrityError)) /\
  (m_contains m k = true -> exists m', m_add k base m = (m', Ok tt) /\
     dkeys m' = dkeys m /\ m_base_version m' k = Ok base /\ m_path_to m' k = Ok (Some [k]) /\
     forall j, j <> k -> dget m' j = dget m j).
Proof. exact existing_tag. Qed.
(** for a tag that does not exist both fail and change nothing, with different
    exceptions. *)
Theorem C41_unknown_tag : forall d m k q,
  (d_contains d k = false -> d_base_version d k = Err TypeError /\ d_change_parent k q d = (d, Err TypeError)) /\
  (m_contains m k = false -> m_base_version m k = Err KeyError /\ m_path_to m k = Ok None /\
     m_change_parent k (Some q) m = (m, Err KeyError)).
Proof. exact unknown_tag. Qed.
(** So they do for a parent that does not exist; DBTree has changed nothing then, but
    MemoryTree may have ([C79_memory_refuted]). *)
Theorem C41_unknown_parent : forall d m k q,
  (d_contains d k = true -> d_contains d q = false -> d_change_parent k q d = (d, Err TypeError)) /\
  (m_contains m k = true -> m_contains m q = false -> snd (m_change_parent k (Some q) m) = Err KeyError).
Proof. exact unknown_parent. Qed.

(** C42: a DBCollection answers like a dict, wherever sqlite puts its rows; only the
    order of iteration differs. *)
Theorem C42_collection_like_dict : forall (V : Type) places (l : list (map_call K V)),
  Forall2 same_answer (coll_calls places [] l) (dict_calls [] l).
Proof. exact (fun V => collection_like_dict). Qed.

(** C43, what holds: on DBCollections all methods but version_info do what they do on
    dicts. *)
Theorem C43_collections_partial : forall place1 place2 h, tk <> KLine -> valid tk h ->
  let v := run re_w tk (C place1) (C place2) T v_empty h in
  (forall t b base, In (t, b, base) h -> get re_w tk (C place1) (C place2) T v t = Ok (Some b)) /\
  (forall t, ~ added h t -> get re_w tk (C place1) (C place2) T v t = Ok None) /\
  (forall t, contains (C place1) (C place2) T v t = true <-> added h t) /\
  (forall t b base, In (t, b, base) h -> d_base_version (tree v) t = Ok base) /\
  (forall t, c_contains (heads v) t = true <-> is_head h t) /\
  (forall t, c_contains (diffs v) t = true <-> added h t /\ ~ is_head h t) /\
  (forall a, valid tk (h ++ [a]) -> add_result re_w tk (C place1) (C place2) T v a = Ok tt).
Proof. exact (collections_ok re_w tk). Qed.
(** version_info fails for every tag, known or not, on every object that keeps its
    diffs in a DBCollection *)
Theorem C43_version_info_refuted : forall place HS TR v t,
  version_info HS (C place) TR v t = Err AttributeError.
Proof. exact (fun place HS TR v t => eq_refl). Qed.
End Theorems.

(** C41 is false: 2 and 1 become children of 3, the second in the slot of the first;
    then 4 goes below 1. *)
Definition three_calls : list (tree_call nat) :=
  [CallAdd 1 None; CallAdd 2 None; CallAdd 3 None; CallAdd 4 None; CallMove 1 3; CallMove 2 3; CallMove 4 1].
Theorem C41_slots_refuted : exists l k, always (E := Teq_nat) sensible l /\
  m_contains (tree_run (memory_tree nat) l) k = true /\
  m_get_split (tree_run (memory_tree nat) l) k <> d_get_split (tree_run (db_tree nat) l) k /\
  option_map height (dget (tree_run (memory_tree nat) l) k) <>
    option_map (fun r => r_height (snd r)) (row_of (tree_run (db_tree nat) l) k).
Proof.
  exists three_calls, 3. split.
  - intros pre c post H. unfold three_calls in H.
    repeat (destruct pre as [|? pre]; [injection H as <- _; cbn;
      first [reflexivity | split; [discriminate|eexists; split; [eapply up_root; reflexivity|cbn; intuition discriminate]]
            | split; [discriminate|eexists; split;
                [eapply up_step; [reflexivity|reflexivity|eapply up_root; reflexivity]|cbn; intuition discriminate]]]
      |injection H as <- H]).
    destruct pre; discriminate.
  - vm_compute. repeat split; discriminate.
Qed.

(** * Examples *)
Notation pl := (fun _ => 0).
Example C40_example :
  let d := run (fun _ => false) KNull (db_store nat pl) (db_store nat pl) (db_tree nat) v_empty line_history in
  fresh KNull line_history /\
  map (d_path_to (tree d)) [1; 2; 3; 4] = [Ok (Some [4; 3; 1]); Ok (Some [4; 2]); Ok (Some [4; 3]); Ok (Some [4])] /\
  map (d_get_split (tree d)) [1; 2; 3; 4] = [Ok (1, [1]); Ok (2, [2]); Ok (1, [3; 1]); Ok (3, [4; 3])] /\
  map (m_get_split (tree (run0 KNull line_history))) [1; 2; 3; 4] = [Ok (1, [1]); Ok (2, [2]); Ok (1, [3; 1]); Ok (3, [4; 3])].
Proof. cbn zeta. split; [apply line_history_valid; now right|]. split; [vm_compute; reflexivity|split; vm_compute; reflexivity]. Qed.
(** the calls Versions makes for the third version of a history *)
Definition good_calls : list (tree_call nat) :=
  [CallAdd 1 None; CallAdd 2 (Some 1); CallMove 1 2; CallAdd 3 (Some 2); CallMove 1 3; CallMove 2 3].
Example C41_example : always (E := Teq_nat) sensible good_calls /\ always (E := Teq_nat) slots_do good_calls /\
  d_get_split (tree_run (db_tree nat) good_calls) 3 = Ok (2, [3; 2]).
Proof.
  split; [|split; [|vm_compute; reflexivity]].
  - intros pre c post H. unfold good_calls in H.
    repeat (destruct pre as [|? pre]; [injection H as <- _; cbn;
      first [reflexivity | split; [discriminate|eexists; split; [eapply up_root; reflexivity|cbn; intuition discriminate]]]
      |injection H as <- H]).
    destruct pre; discriminate.
  - intros pre c post H. unfold good_calls in H.
    repeat (destruct pre as [|? pre]; [injection H as <- _; cbn;
      first [exact I | intros n nq [= <-] [= <-]; cbn; first [reflexivity|split; [discriminate|]]]
      |injection H as <- H]);
    first [destruct pre; discriminate
          |intros c [m [Hm Hp]]; destruct c as [|[|[|[|c]]]]; cbn in Hm; try discriminate; injection Hm as <-; cbn in Hp; congruence].
Qed.
(** adding 1 again after it was moved below 2 *)
Theorem C41_existing_tag_refuted : exists l k,
  m_path_to (tree_run (memory_tree nat) l) k <> d_path_to (tree_run (db_tree nat) l) k.
Proof. exists [CallAdd 1 None; CallAdd 2 (Some 1); CallMove 1 2; CallAdd 1 (Some 2)], 1. vm_compute. discriminate. Qed.
Example C41_existing_tag_example :
  let l := [CallAdd 1 None; CallAdd 2 (Some 1); CallMove 1 2; CallAdd 1 (Some 2)] in
  d_path_to (tree_run (db_tree nat) l) 1 = Ok (Some [2; 1]) /\
  m_path_to (tree_run (memory_tree nat) l) 1 = Ok (Some [1]) /\
  d_base_version (tree_run (db_tree nat) l) 5 = Err TypeError /\
  m_base_version (tree_run (memory_tree nat) l) 5 = Err KeyError.
Proof. vm_compute; auto. Qed.
Example C41_unknown_parent_example :
  let l := [CallAdd 1 None; CallAdd 2 (Some 1); CallMove 1 2] in
  d_change_parent 1 5 (tree_run (db_tree nat) l) = (tree_run (db_tree nat) l, Err TypeError) /\
  snd (m_change_parent 1 (Some 5) (tree_run (memory_tree nat) l)) = Err KeyError.
Proof. vm_compute; auto. Qed.
Example C42_example :
  let l := [CallSet 1 [7]; CallSet 2 [8]; CallSet 1 [9]; CallLen; CallIter; CallDel 2; CallDel 2; CallGet 1; CallGet 2; CallIn 2] in
  coll_calls pl [] l =
    [Ok ANothing; Ok ANothing; Ok ANothing; Ok (ANat 2); Ok (AKeys [2; 1]); Ok ANothing; Err KeyError; Ok (AValue [9]);
     Err KeyError; Ok (ABool false)] /\
  nth_error (dict_calls [] l) 4 = Some (Ok (AKeys [1; 2])).
Proof. vm_compute; auto. Qed.
Example C43_example :
  let v := run (fun _ => false) KNull (db_store nat pl) (db_store nat pl) (db_tree nat) v_empty line_history in
  get (fun _ => false) KNull (db_store nat pl) (db_store nat pl) (db_tree nat) v 1 = Ok (Some [97; 10; 98; 10; 99; 10]%Z) /\
  version_info (db_store nat pl) (db_store nat pl) (db_tree nat) v 1 = Err AttributeError.
Proof. vm_compute; auto. Qed.

Print Assumptions C40_trees_interchangeable.
Print Assumptions C40_versions_same.
Print Assumptions C41_protocol_partial.
Print Assumptions C41_slots_refuted.
Print Assumptions C41_existing_tag.
Print Assumptions C41_existing_tag_refuted.
Print Assumptions C41_unknown_tag.
Print Assumptions C41_unknown_parent.
Print Assumptions C42_collection_like_dict.
Print Assumptions C43_collections_partial.
Print Assumptions C43_version_info_refuted.
