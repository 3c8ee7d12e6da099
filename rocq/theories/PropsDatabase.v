(** Property C76: several objects on one database, and opening it again. *)
From Coq Require Import String.
From Verif Require Import Base Tree Versions DbTree Markup Database SpecDatabase DatabaseProofs.
From Verif Require SpecDb.
Local Open Scope Z_scope.
Local Open Scope list_scope.

(** ** C76  What is in a database stays until it is removed *)
(** Opening the database again loses everything: the new object drops the table. *)
Theorem C76_reopen_refuted : exists (l : list (call (K := list Z) (V := list Z))) n tag v,
  run_all (l ++ [GetItem n tag; NewCollection n; GetItem n tag]) empty_database =
  map (fun _ => Ok ANone) l ++ [Ok (AData v); Ok ANone; Err KeyError].
Proof.
  exists [NewCollection (str "heads"); SetItem (str "heads") 0 (str "v1") (str "text")], (str "heads"), (str "v1"), (str "text").
  vm_compute. reflexivity.
Qed.
Theorem C76_tree_reopen_refuted : exists (l : list (call (K := list Z) (V := list Z))) tag,
  run_all (l ++ [TContains tag; NewTree; TContains tag]) empty_database =
  map (fun _ => Ok ANone) l ++ [Ok (ABool true); Ok ANone; Ok (ABool false)].
Proof. exists [NewTree; TAdd (str "v1") None], (str "v1"). vm_compute. reflexivity. Qed.
(** Names that differ in case only are one table. *)
Theorem C76_case_refuted : exists m n tag v, m <> n /\
  run_all (K := list Z) [NewCollection m; NewCollection n; SetItem m 0 tag v; GetItem n tag; NewCollection n; GetItem m tag]
    empty_database = [Ok ANone; Ok ANone; Ok ANone; Ok (AData v : answer (V := list Z)); Ok ANone; Err KeyError].
Proof. exists (str "Heads"), (str "heads"), (str "v1"), (str "text"). split; [discriminate|]. vm_compute. reflexivity. Qed.
(** A collection named graph takes the table of the tree; one named graph_parent prevents
    the tree from being made, after the table was dropped. *)
Theorem C76_graph_refuted : exists tag,
  run_all (K := list Z) (V := list Z) [NewTree; TAdd tag None; NewCollection (str "graph"); TContains tag] empty_database =
  [Ok ANone; Ok ANone; Ok ANone; Err OperationalError].
Proof. exists (str "v1"). vm_compute. reflexivity. Qed.
Theorem C76_index_refuted :
  run_all (K := list Z) (V := list Z) [NewCollection (str "graph_parent"); NewTree] empty_database = [Ok ANone; Err OperationalError] /\
  run_all (K := list Z) (V := list Z) [NewTree; NewCollection (str "Graph_Parent")] empty_database = [Ok ANone; Err OperationalError].
Proof. vm_compute. auto. Qed.

(** Missing: opening the database again, names related as above.  When the names of two
    sets of objects are not related, then the answers to the calls on the one are the same
    as if there were no calls on the other, for all calls in any order and every database
    at the beginning. *)
Theorem C76_separate_partial : forall {K V} {E : Teq K} (mine : call (K := K) (V := V) -> bool), separated mine ->
  forall l d, my_answers mine l (run_all l d) = run_all (filter mine l) d.
Proof. exact @separate. Qed.
(** So a collection, once made, answers like a dict whatever else is done meanwhile on the
    same database, and a DBTree as if it were alone (for which see C40 and C41). *)
Theorem C76_collection_partial : forall {K V} {E : Teq K} {O : TeqOk K} (mine : call (K := K) (V := V) -> bool), separated mine ->
  forall l d n calls places, filter mine l = NewCollection n :: calls_on n calls places ->
  snd (run (NewCollection n) d) = Ok ANone ->
  exists answers, my_answers mine l (run_all l d) = Ok ANone :: answers /\
    Forall2 like_dict answers (SpecDb.dict_calls [] calls).
Proof. exact @collection_answers. Qed.
Theorem C76_tree_partial : forall {K V} {E : Teq K} (mine : call (K := K) (V := V) -> bool), separated mine ->
  forall l d calls, filter mine l = NewTree :: calls -> forallb on_tree calls = true ->
  snd (run NewTree d) = Ok ANone ->
  my_answers mine l (run_all l d) = Ok ANone :: tree_answers (db_tree K) calls (tr_empty (db_tree K)).
Proof. exact @tree_answers_alone. Qed.
(** What is stored under a name is just the same after any calls on names not related to it,
    and the answers that follow depend on nothing but what is stored. *)
Theorem C76_untouched : forall {K V} {E : Teq K} (l : list (call (K := K) (V := V))) d n,
  (forall c, In c l -> ~ related (call_name c) n) -> after_all l d (fold_name n) = d (fold_name n).
Proof. exact @untouched. Qed.
Theorem C76_continued : forall {K V} {E : Teq K} (l l' : list (call (K := K) (V := V))) d,
  run_all (l ++ l') d = run_all l d ++ run_all l' (after_all l d).
Proof. exact @continued. Qed.
(** What happens instead when an object is made, for every database. *)
Theorem C76_creation_empties : forall {K V} {E : Teq K} n (d : database (K := K) (V := V)) r,
  snd (run (NewCollection n) d) = Ok r ->
  forall tag, snd (run (GetItem n tag) (fst (run (NewCollection n) d))) = Err KeyError.
Proof. exact @creation_empties. Qed.
Theorem C76_tree_creation_empties : forall {K V} {E : Teq K} (d : database (K := K) (V := V)) r,
  snd (run NewTree d) = Ok r ->
  forall tag, snd (run (TContains tag) (fst (run NewTree d))) = Ok (ABool false).
Proof. exact @tree_creation_empties. Qed.

Print Assumptions C76_reopen_refuted.
Print Assumptions C76_tree_reopen_refuted.
Print Assumptions C76_case_refuted.
Print Assumptions C76_graph_refuted.
Print Assumptions C76_index_refuted.
Print Assumptions C76_separate_partial.
Print Assumptions C76_collection_partial.
Print Assumptions C76_tree_partial.
Print Assumptions C76_untouched.
Print Assumptions C76_continued.
Print Assumptions C76_creation_empties.
Print Assumptions C76_tree_creation_empties.

(** Collections heads and diffs and the tree: the calls on heads, and all the others, are
    separated. *)
Definition on_heads (c : call (K := list Z) (V := list Z)) : bool := teq (fold_name (call_name c)) (str "heads").
Example C76_example_separated : separated on_heads.
Proof.
  unfold separated, on_heads, related. intros c c' H H' [R|[T _]].
  - apply same_fold in R. congruence.
  - destruct (teq_spec (fold_name (call_name c)) (str "heads")) as [Q|]; [|discriminate].
    unfold tree_name in T. rewrite !same_fold, Q in T. destruct T as [T|[T|T]]; discriminate.
Qed.
Example C76_example :
  let l := [NewCollection (str "heads"); SetItem (str "heads") 0 (str "v1") (str "text"); NewCollection (str "diffs"); NewTree;
            SetItem (str "diffs") 0 (str "v1") (str "other"); TAdd (str "v1") None; DelItem (str "diffs") (str "v1");
            GetItem (str "Heads") (str "v1")] in
  my_answers on_heads l (run_all l empty_database) = [Ok ANone; Ok ANone; Ok (AData (str "text"))] /\
  filter on_heads l = [NewCollection (str "heads"); SetItem (str "heads") 0 (str "v1") (str "text"); GetItem (str "Heads") (str "v1")].
Proof. vm_compute. auto. Qed.
Example C76_example_untouched :
  let l := [NewCollection (str "diffs"); NewTree; SetItem (str "diffs") 0 (str "v1") (str "other"); TAdd (str "v1") None] in
  forall c : call (K := list Z) (V := list Z), In c l -> ~ related (call_name c) (str "heads").
Proof.
  cbn [In]. unfold related, tree_name. intros c H R. rewrite !same_fold in R.
  destruct H as [<-|[<-|[<-|[<-|[]]]]]; destruct R as [R|[_ [R|[R|R]]]]; discriminate R.
Qed.
(** the same calls with a read between, as calls of a mapping *)
Example C76_example_dict :
  let calls := [SpecDb.CallSet (str "v1") (str "text"); SpecDb.CallGet (str "v1"); SpecDb.CallIter; SpecDb.CallGet (str "v1")] in
  let l := [NewCollection (str "heads"); SetItem (str "heads") 0 (str "v1") (str "text"); NewCollection (str "diffs");
            GetItem (str "heads") (str "v1"); DelItem (str "diffs") (str "v1"); Iter (str "heads");
            GetItem (str "heads") (str "v1")] in
  filter on_heads l = NewCollection (str "heads") :: calls_on (str "heads") calls (fun _ => 0%nat) /\
  snd (run (NewCollection (str "heads")) (empty_database (K := list Z) (V := list Z))) = Ok ANone /\
  SpecDb.dict_calls [] calls =
    [Ok SpecDb.ANothing; Ok (SpecDb.AValue (str "text")); Ok (SpecDb.AKeys [str "v1"]); Ok (SpecDb.AValue (str "text"))].
Proof. vm_compute. auto. Qed.
(** and the calls on the tree *)
Definition on_graph_table (c : call (K := list Z) (V := list Z)) : bool :=
  existsb (teq (fold_name (call_name c))) [str "graph"; str "graph_parent"; str "graph_parent_rid"].
Example C76_example_tree_separated : separated on_graph_table.
Proof.
  assert (Q : forall c, on_graph_table c = true <-> tree_name (call_name c)).
  { intros c. unfold on_graph_table, tree_name. rewrite !same_fold, existsb_exists. split.
    - intros (x & [<-|[<-|[<-|[]]]] & Hx); apply teq_ok in Hx; rewrite Hx; auto.
    - intros H. exists (fold_name (call_name c)). split; [|now apply teq_ok]. destruct H as [H|[H|H]]; rewrite H; cbn; auto. }
  intros c c' H H' [R|[_ T]].
  - apply same_fold in R. unfold on_graph_table in *. congruence.
  - apply Q in T. congruence.
Qed.
Example C76_example_tree :
  let l := [NewCollection (str "heads"); NewTree; TAdd (str "v1") None; NewCollection (str "diffs"); TContains (str "v1");
            SetItem (str "heads") 0 (str "v1") (str "text"); TPath (str "v1"); TSplit (str "v1")] in
  filter on_graph_table l = NewTree :: [TAdd (str "v1") None; TContains (str "v1"); TPath (str "v1"); TSplit (str "v1")] /\
  snd (run NewTree (empty_database (K := list Z) (V := list Z))) = Ok ANone /\
  my_answers on_graph_table l (run_all l empty_database) =
    [Ok ANone; Ok ANone; Ok (ABool true); Ok (APath (Some [str "v1"])); Ok (ASplit (str "v1", [str "v1"]))].
Proof. vm_compute. auto. Qed.
