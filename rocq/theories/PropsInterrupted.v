(** Theorem C125: going on after an interrupted add. *)
From Coq Require Import ZArith Lia.
From Verif Require Import Base Changesets Serialize Tokenizers SpecTokenizers Tree TreeProofs
  Versions SpecVersions VersionsInv VersionsProofs VersionsMore DbTree DbTreeProofs SpecDb DbVersions
  SpecInterrupted InterruptedProofs MemoryLoose InterruptedAgain PropsVersions PropsFrame.
Local Open Scope nat_scope.

Section Theorems.
Context {K : Type} {E : Teq K} {O : TeqOk K}.
Variable re_w : Z -> bool.
Variable tk : tkind.
Notation D := (dict_store K).
Notation C := (db_store K).
Notation M := (memory_tree K).
Notation T := (db_tree K).

(** C125, what holds: an add that stops after any update leaves an object that can be used
    as if the version had not been added, had been added without a base, or had been added.
    What is missing: the third update of an add that splits (one with more than five
    updates), see [C125_goes_on_refuted]. *)
Theorem C125_goes_on_partial : forall h a, tk <> KLine -> valid tk (h ++ [a]) ->
  let v := run re_w tk D D M v_empty h in let n := length (add_trace re_w tk D D M v a) in
  forall i w, nth_error (add_trace re_w tk D D M v a) i = Some w -> i <> 2 \/ n <= 5 ->
  goes_on re_w tk D D M (reached h a i n) w.
Proof. exact (fun h a => valid_goes_on tk re_w D D M dict_law dict_law memory_law h a). Qed.
Theorem C125_goes_on_db_partial : forall place1 place2 h a, tk <> KLine -> valid tk (h ++ [a]) ->
  let v := run re_w tk (C place1) (C place2) T v_empty h in
  let n := length (add_trace re_w tk (C place1) (C place2) T v a) in
  forall i w, nth_error (add_trace re_w tk (C place1) (C place2) T v a) i = Some w -> i <> 2 \/ n <= 5 ->
  goes_on re_w tk (C place1) (C place2) T (reached h a i n) w.
Proof.
  exact (fun place1 place2 h a =>
    valid_goes_on tk re_w (C place1) (C place2) T (db_store_law place1) (db_store_law place2) db_law h a).
Qed.
(** The same add made again, in memory: it succeeds, unless the interrupted add had a base
    and had made all of its updates, when it raises KeyError; in both cases the object is
    as if the add had not been interrupted.  What is missing: the third update of an add
    that splits, see [C125_goes_on_refuted]. *)
Theorem C125_again_partial : forall h a, tk <> KLine -> valid tk (h ++ [a]) ->
  let v := run re_w tk D D M v_empty h in let n := length (add_trace re_w tk D D M v a) in
  forall i w, nth_error (add_trace re_w tk D D M v a) i = Some w -> i <> 2 \/ n <= 5 ->
  add_result re_w tk D D M w a = (if (2 <? n) && (S i =? n) then Err KeyError else Ok tt) /\
  goes_on re_w tk D D M (h ++ [a]) (add_state re_w tk D D M w a).
Proof. exact (fun h a Hk => valid_retry re_w tk D D dict_law dict_law Hk h a). Qed.
(** The same add made again on a database: once the tree has the tag, the add raises
    IntegrityError, and harms nothing. *)
Theorem C125_again_db : forall place1 place2 h a, tk <> KLine -> valid tk (h ++ [a]) ->
  let v := run re_w tk (C place1) (C place2) T v_empty h in
  let n := length (add_trace re_w tk (C place1) (C place2) T v a) in
  forall i w, nth_error (add_trace re_w tk (C place1) (C place2) T v a) i = Some w -> 1 <= i -> i <> 2 \/ n <= 5 ->
  add_result re_w tk (C place1) (C place2) T w a = Err IntegrityError /\
  goes_on re_w tk (C place1) (C place2) T (reached h a i n) (add_state re_w tk (C place1) (C place2) T w a).
Proof.
  exact (fun place1 place2 h a =>
    valid_refused tk re_w (C place1) (C place2) (db_store_law place1) (db_store_law place2) h a).
Qed.
End Theorems.
Print Assumptions C125_goes_on_partial.
Print Assumptions C125_goes_on_db_partial.
Print Assumptions C125_again_partial.
Print Assumptions C125_again_db.

(** The full statement is false: after the third update of an add that splits, version 1
    reads as version 2, whatever is done with the object; making the add again does not
    help, although it succeeds. *)
Theorem C125_goes_on_refuted : exists h a w t b base, valid KNull (h ++ [a]) /\
  nth_error (add_trace0 KNull (run0 KNull h) a) 2 = Some w /\ In (t, b, base) h /\
  get0 KNull w t <> Ok (Some b) /\
  add_result0 KNull w a = Ok tt /\ get0 KNull (add_state0 KNull w a) t <> Ok (Some b).
Proof.
  exists [(1, [97;98]%Z, None); (2, [120;121]%Z, Some 1)], (3, [97;98;99]%Z, Some 2). eexists. exists 1, [97;98]%Z, None.
  split; [cbn [app]; valid_tac; head_tac|]. split; [vm_compute; reflexivity|]. split; [left; reflexivity|].
  split; [vm_compute; discriminate|]. split; [vm_compute; reflexivity|]. vm_compute; discriminate.
Qed.
(** an add that was interrupted after its last update cannot be made again *)
Theorem C125_again_refuted : exists h a w, valid KNull (h ++ [a]) /\
  nth_error (add_trace0 KNull (run0 KNull h) a) (length (add_trace0 KNull (run0 KNull h) a) - 1) = Some w /\
  add_result0 KNull w a = Err KeyError.
Proof.
  exists [(1, [97;98]%Z, None)], (2, [97;98;99]%Z, Some 1). eexists.
  split; [cbn [app]; valid_tac; head_tac|]. split; [vm_compute; reflexivity|]. vm_compute; reflexivity.
Qed.
Print Assumptions C125_goes_on_refuted.
Print Assumptions C125_again_refuted.

(** the hypotheses can be met: an add with eight updates and one with five *)
Example C125_example_valid : valid KNull (line_history ++ [(5, [97%Z], Some 4)]).
Proof. cbn [app line_history]; valid_tac; head_tac. Qed.
Example C125_example_reached : let v := run0 KNull line_history in let a := (5, [97%Z], Some 4) in
  length (add_trace0 KNull v a) = 8 /\
  map (fun i => reached line_history a i 8) [0; 1; 5; 6] =
    [line_history; line_history ++ [(5, [97%Z], None)]; line_history ++ [(5, [97%Z], None)]; line_history ++ [a]].
Proof. split; vm_compute; reflexivity. Qed.
(** made again after each of the eight updates; after the later ones the height stored for
    the tag is then too small *)
Example C125_example_again : let v := run0 KNull line_history in let a := (5, [97%Z], Some 4) in
  map (fun w => add_result0 KNull w a) (add_trace0 KNull v a) = repeat (Ok tt) 7 ++ [Err KeyError] /\
  map (fun w => option_map height (dget (tree (add_state0 KNull w a)) 5)) (add_trace0 KNull v a) =
    map Some [3; 3; 3; 2; 2; 2; 2; 1].
Proof. split; vm_compute; reflexivity. Qed.
Example C125_example_five : length (add_trace0 KNull (run0 KNull [(1, [97]%Z, None)]) (2, [98]%Z, Some 1)) = 5.
Proof. vm_compute. reflexivity. Qed.
