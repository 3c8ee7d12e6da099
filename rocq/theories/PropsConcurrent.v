(** Theorem C124: calls at the same time. *)
From Coq Require Import ZArith Lia Permutation.
From Verif Require Import Base Changesets Serialize Tokenizers SpecTokenizers Tree TreeProofs
  Versions SpecVersions VersionsInv VersionsProofs VersionsMore DbTree DbTreeProofs SpecDb DbVersions SpecLineage VersionsLineage
  Concurrent SpecConcurrent ConcurrentProofs ConcurrentEnd PropsVersions PropsFrame.
Local Open Scope nat_scope.

Section Theorems.
Context {K : Type} {E : Teq K} {O : TeqOk K}.
Variable re_w : Z -> bool.
Variable tk : tkind.
Notation D := (dict_store K).
Notation C := (db_store K).
Notation M := (memory_tree K).
Notation T := (db_tree K).

(** C124, what holds: in whatever order the calls make their steps, they return what they
    should, and when all have returned the object is as if the adds had been made one after
    the other in some order.  What is missing: adds on the same head, and gets of versions
    of a line that is added to; see [C124_adds_refuted], [C124_get_refuted] and
    [C124_get_error_refuted]. *)
Theorem C124_calls_partial : forall h calls, tk <> KLine -> fresh tk (h ++ adds_of calls) -> separate h calls ->
  forall v ps, moves D D M (run re_w tk D D M v_empty h, map (start re_w tk D D M) calls) (v, ps) ->
  (forall i c r, nth_error calls i = Some c -> nth_error ps i = Some (Ret r) ->
    match c with Add _ => r = Ok Added | Get u => exists b base, In (u, b, base) h /\ r = Ok (Found (Some b)) end) /\
  (Forall (returned D D M) ps -> exists order, Permutation (adds_of calls) order /\
    forall g, fresh tk (h ++ order ++ g) -> serves re_w tk D D M (h ++ order ++ g) (run re_w tk D D M v g)).
Proof. exact (together re_w tk D D M dict_law dict_law memory_law). Qed.
(** on a database, if the methods of DBCollection and DBTree are not interrupted *)
Theorem C124_calls_db_partial : forall place1 place2 h calls,
  tk <> KLine -> fresh tk (h ++ adds_of calls) -> separate h calls ->
  forall v ps, moves (C place1) (C place2) T
    (run re_w tk (C place1) (C place2) T v_empty h, map (start re_w tk (C place1) (C place2) T) calls) (v, ps) ->
  (forall i c r, nth_error calls i = Some c -> nth_error ps i = Some (Ret r) ->
    match c with Add _ => r = Ok Added | Get u => exists b base, In (u, b, base) h /\ r = Ok (Found (Some b)) end) /\
  (Forall (returned (C place1) (C place2) T) ps -> exists order, Permutation (adds_of calls) order /\
    forall g, fresh tk (h ++ order ++ g) ->
      serves re_w tk (C place1) (C place2) T (h ++ order ++ g) (run re_w tk (C place1) (C place2) T v g)).
Proof.
  exact (fun place1 place2 => together re_w tk (C place1) (C place2) T (db_store_law place1) (db_store_law place2) db_law).
Qed.
(** Whatever the calls are, there is no endless order of steps, and a call that has not
    returned can make a step: no call waits for another. *)
Theorem C124_ends : forall (HS DS : store K) (TR : tree_impl K) v ps,
  Acc (fun c' c => move HS DS TR c c') (v, ps) /\
  forall i p, nth_error ps i = Some p -> ~ returned HS DS TR p -> exists c', move HS DS TR (v, ps) c'.
Proof. exact (fun HS DS TR v ps => conj (moves_end HS DS TR (v, ps)) (moves_on HS DS TR v ps)). Qed.
(** A call alone does what Versions.v says. *)
Theorem C124_alone : forall (HS DS : store K) (TR : tree_impl K) v,
  (forall t b base, alone HS DS TR (add_p re_w tk HS DS TR t b base) v =
     (add_state re_w tk HS DS TR v (t, b, base), add_result re_w tk HS DS TR v (t, b, base))) /\
  (forall t, alone HS DS TR (get_p re_w tk HS DS TR t) v = (v, get re_w tk HS DS TR v t)).
Proof.
  exact (fun HS DS TR v => conj
    (fun t b base => eq_trans (add_alone re_w tk HS DS TR t b base v) (surjective_pairing _))
    (get_alone re_w tk HS DS TR v)).
Qed.
End Theorems.
Print Assumptions C124_calls_partial.
Print Assumptions C124_calls_db_partial.
Print Assumptions C124_ends.
Print Assumptions C124_alone.

(** * Examples *)
Notation D0 := (dict_store nat).
Notation M0 := (memory_tree nat).
Definition no_word : Z -> bool := fun _ => false.
Notation begin h calls := (run no_word KNull D0 D0 M0 v_empty h, map (start no_word KNull D0 D0 M0) calls).
Notation in_turn order h calls := (turns D0 D0 M0 order (begin h calls)).

(** Two adds on the head abc: abcd and xabc.  Both return, and abc is lost: its diff is from
    xabc, its parent abcd.  One after the other, the second would raise KeyError. *)
Theorem C124_adds_refuted : exists h calls v ps t b base, valid KNull h /\ fresh KNull (h ++ adds_of calls) /\
  (forall a x, In (Add a) calls -> base_of a = Some x -> is_head h x) /\
  moves D0 D0 M0 (begin h calls) (v, ps) /\ Forall (fun p => p = Ret (Ok Added)) ps /\
  In (t, b, base) h /\ get no_word KNull D0 D0 M0 v t <> Ok (Some b).
Proof.
  set (h := [(1, [97; 98; 99]%Z, None)] : list (adding nat)).
  set (calls := [Add (2, [97; 98; 99; 100]%Z, Some 1); Add (3, [120; 97; 98; 99]%Z, Some 1)] : list (call (K := nat))).
  set (order := [0;0;0;0;0; 1;1;1;1;1;1;1;1; 0;0]).
  exists h, calls, (fst (in_turn order h calls)), (snd (in_turn order h calls)), 1, [97; 98; 99]%Z, None.
  split; [unfold h; valid_tac; head_tac|]. split; [|split; [|split; [|split; [|split; [now left|]]]]].
  - split; [repeat constructor; cbn; intuition discriminate|].
    repeat (constructor; [split; [discriminate|storable_tac]|]); constructor.
  - intros a x [[= <-]|[[= <-]|[]]] [= <-]; apply (head_last [] 1).
  - rewrite <- surjective_pairing. apply turns_moves.
  - vm_compute. repeat constructor.
  - vm_compute. discriminate.
Qed.
(** A get of the oldest of two versions, while a third is added: the diff is from the new
    version by the time it is applied to the old head. *)
Theorem C124_get_refuted : exists h calls v ps t b base b', valid KNull (h ++ adds_of calls) /\
  calls = [nth 0 calls (Get 0); Get t] /\ moves D0 D0 M0 (begin h calls) (v, ps) /\
  nth_error ps 1 = Some (Ret (Ok (Found (Some b')))) /\ In (t, b, base) h /\ b' <> b.
Proof.
  set (h := [(1, [97; 98; 99]%Z, None); (2, [97; 98; 99; 100]%Z, Some 1)] : list (adding nat)).
  set (calls := [Add (3, [120; 97; 98; 99; 100]%Z, Some 2); Get 1] : list (call (K := nat))).
  set (order := [1;1; 0;0;0;0;0;0; 1]).
  exists h, calls, (fst (in_turn order h calls)), (snd (in_turn order h calls)), 1, [97; 98; 99]%Z, None, [98; 99; 100]%Z.
  split; [cbn [app adds_of flat_map calls h]; valid_tac; head_tac|]. split; [reflexivity|].
  split; [rewrite <- surjective_pairing; apply turns_moves|].
  split; [vm_compute; reflexivity|]. split; [now left|discriminate].
Qed.
(** or it raises, if the head it starts from is no head any more *)
Theorem C124_get_error_refuted : exists h calls v ps t b base, valid KNull (h ++ adds_of calls) /\
  calls = [nth 0 calls (Get 0); Get t] /\ moves D0 D0 M0 (begin h calls) (v, ps) /\
  nth_error ps 1 = Some (Ret (Err KeyError)) /\ In (t, b, base) h.
Proof.
  set (h := [(1, [97; 98; 99]%Z, None)] : list (adding nat)).
  set (calls := [Add (2, [120; 97; 98; 99; 100]%Z, Some 1); Get 1] : list (call (K := nat))).
  set (order := [1; 0;0;0;0;0;0;0;0; 1]).
  exists h, calls, (fst (in_turn order h calls)), (snd (in_turn order h calls)), 1, [97; 98; 99]%Z, None.
  split; [cbn [app adds_of flat_map calls h]; valid_tac; head_tac|]. split; [reflexivity|].
  split; [rewrite <- surjective_pairing; apply turns_moves|].
  split; [vm_compute; reflexivity|now left].
Qed.
Print Assumptions C124_adds_refuted.
Print Assumptions C124_get_refuted.
Print Assumptions C124_get_error_refuted.

(** Two lines of versions and a third: a fifth version on the first, which splits it at version
    3, a second on the second, a new line, and a get on the third. *)
Example C124_example :
  let h := two_branches ++ [(10, [121]%Z, None)] in
  let calls := [Add (5, [97]%Z, Some 4); Add (11, [120; 120]%Z, Some 9); Add (12, [122]%Z, None); Get 10] in
  let c := in_turn [2;0;3;1;0;0;1;0;0;1;0;2;1;0;1;0;1;0;1;0;1;0;3;0;0;0;0;0] h calls in
  fresh KNull (h ++ adds_of calls) /\ separate h calls /\
  snd c = [Ret (Ok Added); Ret (Ok Added); Ret (Ok Added); Ret (Ok (Found (Some [121]%Z)))] /\
  map (get no_word KNull D0 D0 M0 (fst c)) [1; 2; 3; 4; 5; 9; 10; 11; 12; 13] =
    [Ok (Some [97; 10; 98; 10; 99; 10]); Ok (Some [97; 10; 120; 10; 99; 10]); Ok (Some [97; 10; 121; 10; 99; 10; 100; 10]);
     Ok (Some [97; 10; 122; 10; 99; 10; 100; 10]); Ok (Some [97]); Ok (Some [120]); Ok (Some [121]); Ok (Some [120; 120]);
     Ok (Some [122]); Ok None]%Z /\
  dkeys (tree (fst c)) = [1; 2; 3; 4; 9; 10; 5; 11; 12].
Proof.
  cbv zeta. set (h := two_branches ++ [(10, [121]%Z, None)]).
  assert (F : fresh KNull (h ++ [(5, [97]%Z, Some 4); (11, [120; 120]%Z, Some 9); (12, [122]%Z, None)])).
  { split; [repeat constructor; cbn; intuition discriminate|].
    repeat (constructor; [split; [discriminate|storable_tac]|]); constructor. }
  split; [exact F|]. split; [|split; [vm_compute; reflexivity|split; vm_compute; reflexivity]].
  assert (H4 : is_head h 4).
  { exists (firstn 3 h), [97; 10; 122; 10; 99; 10; 100; 10]%Z, (Some 3), (skipn 4 h). split; [reflexivity|cbn; intuition discriminate]. }
  assert (H9 : is_head h 9).
  { exists (firstn 4 h), [120]%Z, None, (skipn 5 h). split; [reflexivity|cbn; intuition discriminate]. }
  assert (H10 : is_head h 10).
  { exists (firstn 5 h), [121]%Z, None, []. split; [reflexivity|cbn; intuition discriminate]. }
  assert (Nh : NoDup (map tag_of h)) by (repeat constructor; cbn; intuition discriminate).
  split; [|split].
  - intros a x [[= <-]|[[= <-]|[[= <-]|[H|[]]]]]; try discriminate; intros [= <-]; assumption.
  - intros i j a a' x Hi Hj. destruct i as [|[|[|[|i]]]]; try discriminate Hi; try (destruct i; discriminate Hi);
      destruct j as [|[|[|[|j]]]]; try discriminate Hj; try (destruct j; discriminate Hj);
      injection Hi as <-; injection Hj as <-; cbn; intros; congruence.
  - intros u [H|[H|[H|[[= <-]|[]]]]]; try discriminate. split; [now apply is_head_added|].
    intros a x Ha Hb. split; [|intros L; exact (head_no_later _ _ _ Nh H10 L)].
    destruct Ha as [[= <-]|[[= <-]|[[= <-]|[H|[]]]]]; try discriminate; injection Hb as <-; discriminate.
Qed.
