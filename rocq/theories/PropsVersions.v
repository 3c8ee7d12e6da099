(** Theorems C31-C39 and C44 (versions).  [re_w] stands for the character class
    [\w] of the symbol tokenizer; nothing depends on what it is.  Unless another
    store or tree is named, versions are kept in dicts and a MemoryTree. *)
From Coq Require Import ZArith Lia.
From Verif Require Import Base Changesets Serialize Tokenizers SpecTokenizers Tree SpecTree TreeProofs TreeExact
  Versions SpecVersions VersionsInv VersionsProofs VersionsMore.
Local Open Scope nat_scope.

Section Theorems.
Context {K : Type} {E : Teq K} {O : TeqOk K}.
Variable re_w : Z -> bool.
Variable tk : tkind.
Notation D := (dict_store K).
Notation M := (memory_tree K).
Notation after h := (run re_w tk D D M v_empty h).
Notation get := (get re_w tk D D M).
Notation contains := (contains D D M).
Notation version_info := (version_info D D M).
Notation add_result := (add_result re_w tk D D M).
Notation add_state := (add_state re_w tk D D M).
Notation add_trace := (add_trace re_w tk D D M).

(** C31, C36 (Null, Char and Symbol tokenizers): every version added comes back
    verbatim, and nothing else does. *)
Theorem C31_versions_verbatim : forall h, tk <> KLine -> valid tk h ->
  (forall t b base, In (t, b, base) h -> get (after h) t = Ok (Some b)) /\
  (forall t, ~ added h t -> get (after h) t = Ok None).
Proof. exact (fun h H V => retrieval re_w tk D D M dict_law dict_law memory_law h H (proj1 V)). Qed.
(** and every add of such a history succeeds *)
Theorem C31_adds_succeed : forall h a, tk <> KLine -> valid tk (h ++ [a]) ->
  add_result (after h) a = Ok tt.
Proof.
  exact (fun h a H V => proj1 (results re_w tk D D M dict_law dict_law memory_law h a H (proj1 V))
                          (proj2 (valid_snoc tk h a V))).
Qed.

(** C32: the verbatim store has exactly the heads, every other version has
    exactly one diff. *)
Theorem C32_stored_once : forall h, tk <> KLine -> valid tk h ->
  (forall t, dmem (heads (after h)) t = true <-> is_head h t) /\
  (forall t, dmem (diffs (after h)) t = true <-> added h t /\ ~ is_head h t) /\
  (forall t b base, In (t, b, base) h -> is_head h t -> dget (heads (after h)) t = Some b) /\
  NoDup (dkeys (heads (after h))) /\ NoDup (dkeys (diffs (after h))).
Proof. exact (fun h H V => stored_once_dict re_w tk h H (proj1 V)). Qed.

(** C33: membership, base versions and version_info. *)
Theorem C33_base_reported : forall h, tk <> KLine -> valid tk h ->
  (forall t, contains (after h) t = true <-> added h t) /\
  (forall t b base, In (t, b, base) h -> m_base_version (tree (after h)) t = Ok base) /\
  (forall t b base, In (t, b, base) h ->
     exists tokens changes, version_info (after h) t = Ok (Some (base, tokens, changes)) /\
       tokens <= length b /\ (is_head h t -> tokens = length b /\ changes = 0)) /\
  (forall t, ~ added h t -> version_info (after h) t = Ok None).
Proof. exact (fun h H V => reported_dict re_w tk h H (proj1 V)). Qed.

(** C34: the tree is a forest with exact child lists, heights and sizes.  This
    holds even after adds that were rejected. *)
Theorem C34_metrics_exact : forall h, tk <> KLine -> fresh tk h -> tree_exact (tree (after h)).
Proof. exact (tree_exact_memory re_w tk). Qed.

(** C35: get_split gives a way down from the node, and stops in the middle of a
    longest way down: half of its nodes, rounded up or down, lie on the path. *)
Theorem C35_split : forall h t n, tk <> KLine -> fresh tk h -> dget (tree (after h)) t = Some n ->
  exists split path n', m_get_split (tree (after h)) t = Ok (split, path) /\
    down (tree (after h)) t path /\ last path t = split /\
    dget (tree (after h)) split = Some n' /\
    length path + height n' = height n + 1 /\ height n' <= length path <= height n' + 1.
Proof. exact (split_memory re_w tk). Qed.

(** C36 for the line tokenizer, on branches of at most three versions.  What is
    missing: longer branches, see [C36_line_refuted]. *)
Theorem C36_line_partial : forall h, valid tk h -> short h ->
  (forall t b base, In (t, b, base) h -> get (after h) t = Ok (Some b)) /\
  (forall t, ~ added h t -> get (after h) t = Ok None).
Proof. exact (retrieval_short re_w tk D D M dict_law dict_law memory_law). Qed.

(** C37, what holds: with adds that were rejected in the history, every version
    (the rejected ones included) is retrievable.  What is missing: the rejected
    tag is visible, see [C37_rejected_visible_refuted]. *)
Theorem C37_rejected_harmless_partial : forall h, tk <> KLine -> fresh tk h ->
  (forall t b base, In (t, b, base) h -> get (after h) t = Ok (Some b)) /\
  (forall t, ~ added h t -> get (after h) t = Ok None).
Proof. exact (retrieval re_w tk D D M dict_law dict_law memory_law). Qed.
(** exactly the adds whose base is not a head raise, with KeyError *)
Theorem C37_rejected : forall h t b x, tk <> KLine -> fresh tk (h ++ [(t, b, Some x)]) ->
  (is_head h x -> add_result (after h) (t, b, Some x) = Ok tt) /\
  (~ is_head h x -> add_result (after h) (t, b, Some x) = Err KeyError).
Proof. exact (rejected_memory re_w tk). Qed.

(** C38, what holds: adding again a version that has no base and no successor
    replaces its contents and nothing else. *)
Theorem C38_again_partial : forall h t b b', tk <> KLine -> fresh tk h ->
  In (t, b, None) h -> is_head h t -> storable tk b' ->
  add_result (after h) (t, b', None) = Ok tt /\
  get (add_state (after h) (t, b', None)) t = Ok (Some b') /\
  forall u bu base, In (u, bu, base) h -> u <> t ->
    get (add_state (after h) (t, b', None)) u = Ok (Some bu).
Proof. exact (again_ok re_w tk D D dict_law dict_law). Qed.

(** C39, what holds: after every update but the third of an add that splits, all
    earlier versions are retrievable. *)
Theorem C39_interruption_partial : forall h a, tk <> KLine -> fresh tk (h ++ [a]) ->
  forall i w, nth_error (add_trace (after h) a) i = Some w ->
  i <> 2 \/ length (add_trace (after h) a) <= 5 ->
  forall t b base, In (t, b, base) h -> get w t = Ok (Some b).
Proof. exact (interruption re_w tk D D M dict_law dict_law memory_law). Qed.
(** and after the third update all those whose path does not lead through one
    certain node, the split *)
Theorem C39_interruption_split_partial : forall h a, tk <> KLine -> fresh tk (h ++ [a]) ->
  forall w, nth_error (add_trace (after h) a) 2 = Some w ->
  exists split, forall t b base path, In (t, b, base) h ->
    m_path_to (tree w) t = Ok (Some path) -> ~ In split path -> get w t = Ok (Some b).
Proof. exact (interruption_split re_w tk D D M dict_law dict_law memory_law). Qed.

(** C44: at most two diffs (and one head) are written per add, for every history
    whatever, and any kind of store and tree. *)
Theorem C44_writes : forall (HS DS : store K) (TR : tree_impl K) h,
  fst (diffs (run re_w tk (counted HS) (counted DS) TR v_empty h)) <= 2 * length h /\
  fst (heads (run re_w tk (counted HS) (counted DS) TR v_empty h)) <= length h.
Proof. exact (fun HS DS TR h => writes_bound re_w tk HS DS TR h v_empty). Qed.
(** and a retrieval replays at most as many diffs as the height of its tree, less one *)
Theorem C44_path_bound : forall h t, tk <> KLine -> fresh tk h -> added h t ->
  exists root n path, m_path_to (tree (after h)) t = Ok (Some (root :: path)) /\
    dget (tree (after h)) root = Some n /\ parent n = None /\ length path <= height n - 1.
Proof. exact (path_bound_memory re_w tk). Qed.
End Theorems.

(** * Refutations *)
Notation run0 k := (run (fun _ => false) k (dict_store nat) (dict_store nat) (memory_tree nat) v_empty).
Notation get0 k := (get (fun _ => false) k (dict_store nat) (dict_store nat) (memory_tree nat)).
Notation add_result0 k := (add_result (fun _ => false) k (dict_store nat) (dict_store nat) (memory_tree nat)).
Notation add_state0 k := (add_state (fun _ => false) k (dict_store nat) (dict_store nat) (memory_tree nat)).
Notation add_trace0 k := (add_trace (fun _ => false) k (dict_store nat) (dict_store nat) (memory_tree nat)).

Ltac storable_tac :=
  split; [split; [repeat (constructor; [lia|]); constructor|try exact I]|reflexivity].
Ltac valid_tac :=
  match goal with
  | |- valid _ [] => apply valid_nil
  | |- valid _ ?h =>
    let h' := eval cbn in (removelast h) in
    let a := eval cbn in (last h (0, [], None)) in
    match a with
    | (?t, ?b, ?base) =>
      change h with (h' ++ [(t, b, base)]); apply valid_add;
      [valid_tac|unfold added; cbn; intuition discriminate|discriminate|storable_tac|]
    end
  end.
Ltac head_tac :=
  first [exact I |
    match goal with |- is_head ?h ?t =>
      first [apply (head_last [] t) | apply (head_last [_] t) | apply (head_last [_; _] t) | apply (head_last [_; _; _] t)]
    end].

(** four versions of a file of three or four lines: a b c, a x c, a y c d, a z c d *)
Definition line_history : list (adding nat) :=
  [(1, [97; 10; 98; 10; 99; 10]%Z, None);
   (2, [97; 10; 120; 10; 99; 10]%Z, Some 1);
   (3, [97; 10; 121; 10; 99; 10; 100; 10]%Z, Some 2);
   (4, [97; 10; 122; 10; 99; 10; 100; 10]%Z, Some 3)].
Lemma line_history_valid k : (k = KLine \/ k = KNull) -> valid k line_history.
Proof. intros [-> | ->]; valid_tac; head_tac. Qed.

(** C36 is false of the line tokenizer: the first of these versions comes back
    with its last line replaced. *)
Theorem C36_line_refuted : exists h t b base, valid KLine h /\ In (t, b, base) h /\
  get0 KLine (run0 KLine h) t <> Ok (Some b).
Proof.
  exists line_history, 1, [97; 10; 98; 10; 99; 10]%Z, None.
  split; [apply line_history_valid; now left|]. split; [now left|]. vm_compute; discriminate.
Qed.

(** C37 is false: after an add that raised, the tag is there. *)
Theorem C37_rejected_visible_refuted : exists h t b x, valid KNull h /\ fresh KNull (h ++ [(t, b, Some x)]) /\
  add_result0 KNull (run0 KNull h) (t, b, Some x) = Err KeyError /\
  contains (dict_store nat) (dict_store nat) (memory_tree nat) (add_state0 KNull (run0 KNull h) (t, b, Some x)) t = true /\
  get0 KNull (add_state0 KNull (run0 KNull h) (t, b, Some x)) t = Ok (Some b).
Proof.
  exists [(1, [97]%Z, None)], 2, [98]%Z, 7. split; [valid_tac; head_tac|]. split.
  - split; [repeat constructor; cbn; intuition discriminate|].
    repeat (constructor; [split; [discriminate|storable_tac]|]); constructor.
  - vm_compute; auto.
Qed.
(** A tag that is given as its own base is not rejected either: the loop of
    [_update_metrics] does not end, however long it runs. *)
Theorem C37_own_base_refuted : forall fuel,
  let node := mkNode 0 (Some 1) [1] 1 1 (Some 1) in
  (* the node for tag 1 after line 63 of memory_tree.py in add(1, b"", 1) *)
  snd (update_metrics fuel (Some 1) [(1, node)]) = Err OutOfFuel.
Proof. intros fuel. eapply self_loop; reflexivity. Qed.

(** C38 is false: adding tag 2 again changes what is retrieved for tag 1. *)
Theorem C38_again_refuted : exists h t b' u bu base, valid KNull h /\ In (u, bu, base) h /\ u <> t /\ storable KNull b' /\
  add_result0 KNull (run0 KNull h) (t, b', None) = Ok tt /\
  get0 KNull (add_state0 KNull (run0 KNull h) (t, b', None)) u <> Ok (Some bu).
Proof.
  exists [(1, [97; 98]%Z, None); (2, [97; 98; 99]%Z, Some 1)], 2, [120; 121]%Z, 1, [97; 98]%Z, None.
  split; [valid_tac; head_tac|]. split; [now left|]. split; [discriminate|]. split; [storable_tac|].
  split; [vm_compute; reflexivity|vm_compute; discriminate].
Qed.

(** C39 is false: between the update of the diff of version 1 and the change of its
    parent, version 1 is wrong. *)
Theorem C39_interruption_refuted : exists h a w t b base, valid KNull (h ++ [a]) /\
  nth_error (add_trace0 KNull (run0 KNull h) a) 2 = Some w /\ In (t, b, base) h /\ get0 KNull w t <> Ok (Some b).
Proof.
  exists [(1, [97; 98]%Z, None); (2, [120; 121]%Z, Some 1)], (3, [97; 98; 99]%Z, Some 2).
  eexists _, 1, [97; 98]%Z, None.
  split; [cbn [app]; valid_tac; head_tac|].
  split; [vm_compute; reflexivity|]. split; [now left|]. vm_compute; discriminate.
Qed.

(** * The hypotheses are met by real histories *)
Example C31_example : valid KNull line_history /\
  map (get0 KNull (run0 KNull line_history)) [1; 2; 3; 4; 5] =
    map (fun b => Ok (Some b))
      [[97; 10; 98; 10; 99; 10]; [97; 10; 120; 10; 99; 10]; [97; 10; 121; 10; 99; 10; 100; 10];
       [97; 10; 122; 10; 99; 10; 100; 10]]%Z ++ [Ok None].
Proof. split; [apply line_history_valid; now right|vm_compute; reflexivity]. Qed.
Example C32_example : dkeys (heads (run0 KNull line_history)) = [4] /\
  dkeys (diffs (run0 KNull line_history)) = [1; 2; 3].
Proof. vm_compute; auto. Qed.
Example C34_example : map (fun t => match dget (tree (run0 KNull line_history)) t with
    | Some n => (height n, size n) | None => (0, 0) end) [1; 2; 3; 4] = [(1, 1); (1, 1); (2, 2); (3, 4)].
Proof. vm_compute; reflexivity. Qed.
Example C35_example : m_get_split (tree (run0 KNull line_history)) 4 = Ok (3, [4; 3]).
Proof. vm_compute; reflexivity. Qed.
Example C36_example : valid KLine (firstn 3 line_history) /\ short (firstn 3 line_history) /\
  map (get0 KLine (run0 KLine (firstn 3 line_history))) [1; 2; 3] =
    map (fun b => Ok (Some b))
      [[97; 10; 98; 10; 99; 10]; [97; 10; 120; 10; 99; 10]; [97; 10; 121; 10; 99; 10; 100; 10]]%Z.
Proof.
  split; [|split].
  - cbn [firstn line_history]; valid_tac; head_tac.
  - intros [t1 [b2 [t2 [b3 [t3 [b4 [t4 [H1 [H2 H3]]]]]]]]]. cbn in H1, H2, H3.
    repeat match goal with H : _ \/ _ |- _ => destruct H | H : False |- _ => destruct H end; congruence.
  - vm_compute; reflexivity.
Qed.
Example C37_example : add_result0 KNull (run0 KNull line_history) (9, [1%Z], Some 2) = Err KeyError /\
  get0 KNull (add_state0 KNull (run0 KNull line_history) (9, [1%Z], Some 2)) 1 = Ok (Some [97; 10; 98; 10; 99; 10]%Z).
Proof. vm_compute; auto. Qed.
Example C33_example :
  map (version_info (dict_store nat) (dict_store nat) (memory_tree nat) (run0 KNull line_history)) [1; 2; 3; 4; 5] =
    [Ok (Some (None, 1, 3)); Ok (Some (Some 1, 1, 3)); Ok (Some (Some 2, 1, 3)); Ok (Some (Some 3, 8, 0)); Ok None].
Proof. vm_compute; reflexivity. Qed.
(** a history with two branches, one of them a single version *)
Example C38_example :
  let h := line_history ++ [(5, [97]%Z, None)] in
  fresh KNull h /\ In (5, [97]%Z, None) h /\ is_head h 5 /\ storable KNull [98]%Z /\
  map (get0 KNull (add_state0 KNull (run0 KNull h) (5, [98]%Z, None))) [1; 5] =
    [Ok (Some [97; 10; 98; 10; 99; 10]%Z); Ok (Some [98]%Z)].
Proof.
  cbn zeta. split; [|split; [|split; [|split]]].
  - apply valid_add; [apply line_history_valid; now right|unfold added; cbn; intuition discriminate|discriminate|
      storable_tac|exact I].
  - cbn; auto 10.
  - apply head_last.
  - storable_tac.
  - vm_compute; reflexivity.
Qed.
Example C39_example : length (add_trace0 KNull (run0 KNull line_history) (5, [97%Z], Some 4)) = 8.
Proof. vm_compute; reflexivity. Qed.
Example C44_example :
  fst (diffs (run (fun _ => false) KNull (counted (dict_store nat)) (counted (dict_store nat)) (memory_tree nat)
    v_empty line_history)) = 5.
Proof. vm_compute; reflexivity. Qed.

Print Assumptions C31_versions_verbatim.
Print Assumptions C31_adds_succeed.
Print Assumptions C32_stored_once.
Print Assumptions C33_base_reported.
Print Assumptions C34_metrics_exact.
Print Assumptions C35_split.
Print Assumptions C36_line_partial.
Print Assumptions C36_line_refuted.
Print Assumptions C37_rejected_harmless_partial.
Print Assumptions C37_rejected.
Print Assumptions C37_rejected_visible_refuted.
Print Assumptions C37_own_base_refuted.
Print Assumptions C38_again_partial.
Print Assumptions C38_again_refuted.
Print Assumptions C39_interruption_partial.
Print Assumptions C39_interruption_split_partial.
Print Assumptions C39_interruption_refuted.
Print Assumptions C44_writes.
Print Assumptions C44_path_bound.
