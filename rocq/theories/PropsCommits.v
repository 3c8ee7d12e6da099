(** Theorem C127: a process that stops between two commits of an add on a database. *)
From Coq Require Import ZArith Lia.
From Verif Require Import Base Changesets Serialize Tokenizers SpecTokenizers Tree TreeProofs
  Versions SpecVersions VersionsInv VersionsProofs VersionsMore DbTree DbTreeProofs SpecDb DbVersions
  SpecInterrupted InterruptedProofs DbCommits SpecCommits CommitsProofs PropsVersions PropsFrame.
Local Open Scope nat_scope.

Section Theorems.
Context {K : Type} {E : Teq K} {O : TeqOk K}.
Variable re_w : Z -> bool.
Variable tk : tkind.
Notation C := (db_store K).
Notation T := (db_tree K).

(** The add that shows its commits is the add of which the other properties speak: it
    leaves the same object and returns or raises the same. *)
Theorem C127_same : forall place1 place2 tag b base v,
  snd (add_by re_w tk (C place1) (C place2) (on_commits (C place1) (C place2)) tag b base v) =
  snd (add re_w tk (C place1) (C place2) T tag b base v).
Proof. exact (fun place1 place2 => commits_same tk re_w (C place1) (C place2)). Qed.
(** C127, what holds: an add that stops after any commit leaves an object that can be used
    as if the version had not been added, had been added without a base, or had been added.
    What is missing: the third and the fourth commit of an add that splits (one with more
    than seven commits), see [C127_goes_on_refuted] and [C127_reads_refuted]. *)
Theorem C127_goes_on_partial : forall place1 place2 h a, tk <> KLine -> valid tk (h ++ [a]) ->
  let v := run re_w tk (C place1) (C place2) T v_empty h in
  let n := length (commits re_w tk (C place1) (C place2) v a) in
  forall i w, nth_error (commits re_w tk (C place1) (C place2) v a) i = Some w -> (i <> 2 /\ i <> 3) \/ n <= 7 ->
  goes_on re_w tk (C place1) (C place2) T (reached_commit h a i n) w.
Proof.
  exact (fun place1 place2 h a =>
    valid_commits_go_on tk re_w (C place1) (C place2) (db_store_law place1) (db_store_law place2) h a).
Qed.
(** After the fourth commit, too, everything can be read. *)
Theorem C127_reads_partial : forall place1 place2 h a, tk <> KLine -> valid tk (h ++ [a]) ->
  let v := run re_w tk (C place1) (C place2) T v_empty h in
  let n := length (commits re_w tk (C place1) (C place2) v a) in
  forall i w, nth_error (commits re_w tk (C place1) (C place2) v a) i = Some w -> i <> 2 \/ n <= 7 ->
  reads re_w tk (C place1) (C place2) T (reached_commit h a i n) w.
Proof.
  exact (fun place1 place2 h a =>
    valid_commits_read tk re_w (C place1) (C place2) (db_store_law place1) (db_store_law place2) h a).
Qed.
(** The same add made again: once the tree has the tag, it raises IntegrityError, and harms
    nothing. *)
Theorem C127_again_partial : forall place1 place2 h a, tk <> KLine -> valid tk (h ++ [a]) ->
  let v := run re_w tk (C place1) (C place2) T v_empty h in
  let n := length (commits re_w tk (C place1) (C place2) v a) in
  forall i w, nth_error (commits re_w tk (C place1) (C place2) v a) i = Some w -> 1 <= i -> (i <> 2 /\ i <> 3) \/ n <= 7 ->
  add_result re_w tk (C place1) (C place2) T w a = Err IntegrityError /\
  goes_on re_w tk (C place1) (C place2) T (reached_commit h a i n) (add_state re_w tk (C place1) (C place2) T w a).
Proof.
  exact (fun place1 place2 h a =>
    valid_commits_refused tk re_w (C place1) (C place2) (db_store_law place1) (db_store_law place2) h a).
Qed.
End Theorems.
Print Assumptions C127_same.
Print Assumptions C127_goes_on_partial.
Print Assumptions C127_reads_partial.
Print Assumptions C127_again_partial.

(** new rows at the end *)
Notation D1 := (db_store nat (fun t => length t)).
Notation run1 := (run (fun _ => false) KNull D1 D1 (db_tree nat) v_empty).
Notation commits1 := (commits (fun _ => false) KNull D1 D1).

(** The full statement is false.  After the fourth commit of an add that splits, the version
    that was the head, and still is one, cannot be built on: adding to it raises a
    TypeError, since the height that the tree has stored for it is too large. *)
Theorem C127_goes_on_refuted : exists h a w c, valid KNull (h ++ [a]) /\
  nth_error (commits1 (run1 h) a) 3 = Some w /\
  valid KNull (reached_commit h a 3 (length (commits1 (run1 h) a)) ++ [c]) /\
  add_result (fun _ => false) KNull D1 D1 (db_tree nat) w c = Err TypeError.
Proof.
  exists [(1, [97;98]%Z, None); (2, [120;121]%Z, Some 1)], (3, [97;98;99]%Z, Some 2). eexists. exists (4, [99]%Z, Some 2).
  split; [cbn [app]; valid_tac; head_tac|]. split; [vm_compute; reflexivity|]. split; [|vm_compute; reflexivity].
  replace (reached_commit _ _ _ _) with [(1, [97;98]%Z, None); (2, [120;121]%Z, Some 1); (3, [97;98;99]%Z, @None nat)]
    by (vm_compute; reflexivity).
  cbn [app]; valid_tac; try head_tac.
  exists [(1, [97;98]%Z, None)], [120;121]%Z, (Some 1), [(3, [97;98;99]%Z, None)]. split; [reflexivity|]. intros [H|[]]; discriminate.
Qed.
(** And after the third one a version reads as another one. *)
Theorem C127_reads_refuted : exists h a w t b base, valid KNull (h ++ [a]) /\
  nth_error (commits1 (run1 h) a) 2 = Some w /\ In (t, b, base) h /\
  get (fun _ => false) KNull D1 D1 (db_tree nat) w t <> Ok (Some b).
Proof.
  exists [(1, [97;98]%Z, None); (2, [120;121]%Z, Some 1)], (3, [97;98;99]%Z, Some 2). eexists. exists 1, [97;98]%Z, None.
  split; [cbn [app]; valid_tac; head_tac|]. split; [vm_compute; reflexivity|]. split; [left; reflexivity|].
  vm_compute; discriminate.
Qed.
Print Assumptions C127_goes_on_refuted.
Print Assumptions C127_reads_refuted.

(** the hypotheses can be met: an add with fourteen commits and one with seven *)
Example C127_example_valid : valid KNull (line_history ++ [(5, [97%Z], Some 4)]).
Proof. cbn [app line_history]; valid_tac; head_tac. Qed.
Example C127_example_commits : let v := run1 line_history in let a := (5, [97%Z], Some 4) in
  length (commits1 v a) = 14 /\
  map (fun i => reached_commit line_history a i 14) [0; 1; 9; 10] =
    [line_history; line_history ++ [(5, [97%Z], None)]; line_history ++ [(5, [97%Z], None)]; line_history ++ [a]].
Proof. split; vm_compute; reflexivity. Qed.
Example C127_example_seven : length (commits1 (run1 [(1, [97]%Z, None)]) (2, [98]%Z, Some 1)) = 7.
Proof. vm_compute. reflexivity. Qed.
(** the tables between the commits differ in their metrics *)
Example C127_example_between :
  map (fun w : vstate D1 D1 (db_tree nat) => map (fun r => (r_tag r, r_parent r, r_height r)) (tree w : table nat))
    (firstn 3 (skipn 3 (commits1 (run1 [(1, [97;98]%Z, None); (2, [120;121]%Z, Some 1)]) (3, [97;98;99]%Z, Some 2)))) =
  [[(1, Some 3, 1); (2, None, 2); (3, None, 1)]; [(1, Some 3, 1); (2, None, 1); (3, None, 1)];
   [(1, Some 3, 1); (2, None, 1); (3, None, 2)]].
Proof. vm_compute. reflexivity. Qed.
