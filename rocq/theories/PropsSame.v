(** Theorem C107: a tokenizer has no influence on which versions are heads, on the tree
    and on what raises; it decides about the contents of the stored diffs only.  So what
    C31-C37 say about heads, trees and exceptions holds for the line tokenizer too, on
    branches of any length (where C36 fails for the contents of older versions). *)
From Coq Require Import ZArith Lia.
From Verif Require Import Base Tokenizers SpecTokenizers Tree SpecTree TreeProofs TreeExact Versions SpecVersions SpecSame
  VersionsInv VersionsProofs DbTree DbTreeProofs DbVersions VersionsSame VersionsMore PropsVersions.
Local Open Scope nat_scope.

Section Theorems.
Context {K : Type} {E : Teq K} {O : TeqOk K}.
Variable re_w : Z -> bool.
Notation D := (dict_store K).
Notation M := (memory_tree K).
Notation C := (db_store K).
Notation T := (db_tree K).
Notation after k h := (run re_w k D D M v_empty h).
Notation get k := (Versions.get re_w k D D M).
Notation in_memory k := (sized (fun pre => get k (after k pre))).

Theorem C107_same_state : forall k (h : list (adding K)), fresh k h -> in_memory k h ->
  heads (after k h) = heads (after KNull h) /\ tree (after k h) = tree (after KNull h) /\
  forall t, dmem (diffs (after k h)) t = dmem (diffs (after KNull h)) t.
Proof. exact (same_state re_w D D M dict_law dict_law memory_law). Qed.
(** an add raises the same, and all its updates of heads and tree are the same *)
Theorem C107_same_add : forall k (h : list (adding K)) a, fresh k (h ++ [a]) -> in_memory k h ->
  add_result re_w k D D M (after k h) a = add_result re_w KNull D D M (after KNull h) a /\
  Forall2 (fun v w => heads v = heads w /\ tree v = tree w /\ forall t, s_mem D (diffs v) t = s_mem D (diffs w) t)
    (add_trace re_w k D D M (after k h) a) (add_trace re_w KNull D D M (after KNull h) a).
Proof. exact (same_add re_w D D M dict_law dict_law memory_law). Qed.
(** the hypothesis about sizes is needed for the line tokenizer only *)
Theorem C107_sizes : forall k (h : list (adding K)), k <> KLine -> fresh k h -> in_memory k h.
Proof. exact (sized_other re_w D D M dict_law dict_law memory_law). Qed.

(** no retrieval raises; heads come back as they were added *)
Theorem C107_gets : forall k (h : list (adding K)), fresh k h -> in_memory k h ->
  (forall t, added h t -> exists b, get k (after k h) t = Ok (Some b) /\ real_contents (CBytes b)) /\
  (forall t b base, In (t, b, base) h -> is_head h t -> get k (after k h) t = Ok (Some b)) /\
  (forall t, ~ added h t -> get k (after k h) t = Ok None).
Proof. exact (same_get re_w D D M dict_law dict_law memory_law). Qed.
(** so does the version before the one added last *)
Theorem C107_previous : forall k (h : list (adding K)) tag b x bx basex,
  fresh k (h ++ [(tag, b, Some x)]) -> in_memory k h -> is_head h x -> In (x, bx, basex) h ->
  get k (after k (h ++ [(tag, b, Some x)])) x = Ok (Some bx).
Proof. exact (last_base re_w D D M dict_law dict_law memory_law). Qed.
(** exactly the adds whose base is not a head raise *)
Theorem C107_adds : forall k (h : list (adding K)) a, fresh k (h ++ [a]) -> in_memory k h ->
  (match base_of a with None => True | Some x => is_head h x end -> add_result re_w k D D M (after k h) a = Ok tt) /\
  (match base_of a with None => False | Some x => ~ is_head h x end ->
    exists e, add_result re_w k D D M (after k h) a = Err e /\
      match base_of a with Some x => added h x -> e = KeyError | None => True end).
Proof. exact (any_results re_w D D M dict_law dict_law memory_law). Qed.
(** what is stored where, membership, base versions *)
Theorem C107_stored : forall k (h : list (adding K)), fresh k h -> in_memory k h ->
  (forall t, dmem (heads (after k h)) t = true <-> is_head h t) /\
  (forall t, dmem (diffs (after k h)) t = true <-> added h t /\ ~ is_head h t) /\
  (forall t b base, In (t, b, base) h -> is_head h t -> s_get D (heads (after k h)) t = Ok b) /\
  (forall t, contains D D M (after k h) t = true <-> added h t) /\
  (forall t b base, In (t, b, base) h -> m_base_version (tree (after k h)) t = Ok base).
Proof. exact (any_stored re_w D D M dict_law dict_law memory_law). Qed.
Theorem C107_info : forall k (h : list (adding K)), fresh k h -> in_memory k h ->
  (forall t b base, In (t, b, base) h -> exists tokens changes,
     version_info D D M (after k h) t = Ok (Some (base, tokens, changes)) /\
     (is_head h t -> tokens = length b /\ changes = 0)) /\
  (forall t, ~ added h t -> version_info D D M (after k h) t = Ok None).
Proof. exact (any_info re_w). Qed.

(** the same for versions in a database *)
Notation after_db place1 place2 k h := (run re_w k (C place1) (C place2) T v_empty h).
Notation in_database place1 place2 k :=
  (sized (fun pre => Versions.get re_w k (C place1) (C place2) T (after_db place1 place2 k pre))).
Theorem C107_database : forall place1 place2 k (h : list (adding K)), fresh k h -> in_database place1 place2 k h ->
  heads (after_db place1 place2 k h) = heads (after_db place1 place2 KNull h) /\
  tree (after_db place1 place2 k h) = tree (after_db place1 place2 KNull h) /\
  forall t, s_mem (C place2) (diffs (after_db place1 place2 k h)) t = s_mem (C place2) (diffs (after_db place1 place2 KNull h)) t.
Proof. exact (fun p1 p2 => same_state re_w _ _ T (db_store_law p1) (db_store_law p2) db_law). Qed.
Theorem C107_database_gets : forall place1 place2 k (h : list (adding K)), fresh k h -> in_database place1 place2 k h ->
  let get := Versions.get re_w k (C place1) (C place2) T in
  (forall t, added h t -> exists b, get (after_db place1 place2 k h) t = Ok (Some b) /\ real_contents (CBytes b)) /\
  (forall t b base, In (t, b, base) h -> is_head h t -> get (after_db place1 place2 k h) t = Ok (Some b)) /\
  (forall t, ~ added h t -> get (after_db place1 place2 k h) t = Ok None).
Proof. exact (fun p1 p2 => same_get re_w _ _ T (db_store_law p1) (db_store_law p2) db_law). Qed.
End Theorems.

(** ** Examples: the history of [C36_line_refuted], whose first version the line
    tokenizer does not keep *)
Lemma prefix_cases {A} (h pre post : list A) : h = pre ++ post -> exists n, n <= length h /\ pre = firstn n h.
Proof. intros ->. exists (length pre). rewrite app_length, firstn_app, Nat.sub_diag, firstn_all, app_nil_r. split; [lia|reflexivity]. Qed.
Lemma line_history_sized : sized (fun pre => get0 KLine (run0 KLine pre)) line_history.
Proof.
  intros pre post t b Hp Hg. destruct (prefix_cases _ _ _ Hp) as (n & Hn & ->). cbn in Hn. clear Hp.
  do 5 (destruct n as [|n]; [do 5 (destruct t as [|t]; [vm_compute in Hg; first [discriminate|injection Hg as <-; vm_compute; reflexivity]|]); vm_compute in Hg; discriminate|]).
  exfalso. lia.
Qed.
Example C107_example : fresh KLine line_history /\
  map (get0 KLine (run0 KLine line_history)) [1; 2; 3; 4; 5] =
    map (fun b => Ok (Some b))
      [[97; 10; 98; 10; 100; 10]; [97; 10; 120; 10; 99; 10]; [97; 10; 121; 10; 99; 10; 100; 10];
       [97; 10; 122; 10; 99; 10; 100; 10]]%Z ++ [Ok None] /\
  (heads (run0 KLine line_history), tree (run0 KLine line_history)) = (heads (run0 KNull line_history), tree (run0 KNull line_history)) /\
  diffs (run0 KLine line_history) <> diffs (run0 KNull line_history) /\
  map (version_info (dict_store nat) (dict_store nat) (memory_tree nat) (run0 KLine line_history)) [1; 4; 5] =
    [Ok (Some (None, 2, 4)); Ok (Some (Some 3, 8, 0)); Ok None].
Proof.
  split; [apply (line_history_valid KLine); now left|]. split; [vm_compute; reflexivity|]. split; [vm_compute; reflexivity|].
  split; [vm_compute; discriminate|vm_compute; reflexivity].
Qed.
(** a fifth version, based on the fourth: that is what [C107_previous] and [C107_adds] speak about *)
Example C107_previous_example : let h := line_history ++ [(5, [97; 10; 122; 10]%Z, Some 4)] in
  fresh KLine h /\ is_head line_history 4 /\ ~ is_head line_history 3 /\
  get0 KLine (run0 KLine h) 4 = Ok (Some [97; 10; 122; 10; 99; 10; 100; 10]%Z) /\
  add_result0 KLine (run0 KLine line_history) (5, [97; 10; 122; 10]%Z, Some 3) = Err KeyError.
Proof.
  cbn zeta. split; [|split; [|split; [|vm_compute; auto]]].
  - apply valid_add; [apply line_history_valid; now left|unfold added; cbn; intuition discriminate|discriminate|storable_tac|].
    apply (head_last (firstn 3 line_history)).
  - apply (head_last (firstn 3 line_history)).
  - intros (pre & b & base & post & Hh & Hn). destruct (prefix_cases _ _ _ Hh) as (n & Hl & ->). cbn in Hl.
    do 5 (destruct n as [|n]; [cbn in Hh; try discriminate; injection Hh; intros; subst; cbn in Hn; tauto|]). lia.
Qed.

Print Assumptions C107_same_state.
Print Assumptions C107_same_add.
Print Assumptions C107_sizes.
Print Assumptions C107_gets.
Print Assumptions C107_previous.
Print Assumptions C107_adds.
Print Assumptions C107_stored.
Print Assumptions C107_info.
Print Assumptions C107_database.
Print Assumptions C107_database_gets.
