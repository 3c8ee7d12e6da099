(** Theorems C120 and C121: the way to every version of a line and the number of times its
    diff is written depend on nothing but the number of the version and the length of the
    line. *)
From Coq Require Import ZArith Lia.
From Verif Require Import Base Changesets Serialize Tokenizers SpecTokenizers Tree SpecTree
  Versions SpecVersions SpecLine VersionsInv VersionsProofs DbTree SpecDb DbVersions
  SpecWays SpecWrites VersionsWays VersionsWrites PropsSqrt PropsShape.
Local Open Scope nat_scope.

Section Theorems.
Context {K : Type} {E : Teq K} {O : TeqOk K}.
Variable re_w : Z -> bool.
Variable tk : tkind.
Notation D := (dict_store K).
Notation C := (db_store K).
Notation M := (memory_tree K).
Notation T := (db_tree K).

(** C120: [path_to] goes through the versions whose numbers [way] lists, and [get_split]
    answers with the version whose number [moves] names and the way to it *)
Theorem C120_ways : forall h, tk <> KLine -> fresh tk h ->
  let s := tree (run re_w tk D D M v_empty h) in
  forall x ls, is_head h x -> line h x ls ->
    (forall i t p, numbers ls i t -> way (length ls) i p -> exists q,
       m_path_to s t = Ok (Some q) /\ Forall2 (numbers ls) p q) /\
    (exists y p sp q, moves (length ls) y /\ way (length ls) y p /\ numbers ls y sp /\ Forall2 (numbers ls) p q /\
       m_get_split s x = Ok (sp, q)).
Proof. exact (ways_memory re_w tk). Qed.
(** the same on a database *)
Theorem C120_ways_db : forall place1 place2 h, tk <> KLine -> fresh tk h ->
  let s := tree (run re_w tk (C place1) (C place2) T v_empty h) in
  forall x ls, is_head h x -> line h x ls ->
    (forall i t p, numbers ls i t -> way (length ls) i p -> exists q,
       d_path_to s t = Ok (Some q) /\ Forall2 (numbers ls) p q) /\
    (exists y p sp q, moves (length ls) y /\ way (length ls) y p /\ numbers ls y sp /\ Forall2 (numbers ls) p q /\
       d_get_split s x = Ok (sp, q)).
Proof. exact (ways_db re_w tk). Qed.
(** the three relations on numbers are functions: the numbers determine the answers *)
Theorem C120_determined : forall m,
  (forall i, i + 1 < m -> exists! j, hangs m i j) /\
  (forall i, i < m -> exists! p, way m i p) /\
  (0 < m -> exists! y, moves m y).
Proof. exact (fun m => conj (hangs_one m) (conj (way_one m) (moves_unique m))). Qed.

(** C121: the diff of a version is written at most three times, once for each later version
    from which it hangs when that one is added *)
Theorem C121_writes : forall h, tk <> KLine -> fresh tk h ->
  let v := run re_w tk D (logged D) M v_empty h in
  (forall t, times t (fst (diffs v)) <= 3) /\
  (forall x ls i t, is_head h x -> line h x ls -> numbers ls i t -> exists js,
     write_list (length ls) i js /\ times t (fst (diffs v)) = length js) /\
  (forall t, get re_w tk D (logged D) M v t = get re_w tk D D M (run re_w tk D D M v_empty h) t).
Proof. exact (writes_memory re_w tk). Qed.
Theorem C121_writes_db : forall place1 place2 h, tk <> KLine -> fresh tk h ->
  let v := run re_w tk (C place1) (logged (C place2)) T v_empty h in
  (forall t, times t (fst (diffs v)) <= 3) /\
  (forall x ls i t, is_head h x -> line h x ls -> numbers ls i t -> exists js,
     write_list (length ls) i js /\ times t (fst (diffs v)) = length js) /\
  (forall t, get re_w tk (C place1) (logged (C place2)) T v t =
             get re_w tk (C place1) (C place2) T (run re_w tk (C place1) (C place2) T v_empty h) t).
Proof. exact (writes_db re_w tk). Qed.
End Theorems.

(** * Examples *)
(** the thirty versions of PropsSqrt.v: their tags are their numbers *)
Ltac by_block k := split; [lia|exists k; lia].
Example C120_way_example : way 30 0 [29; 28; 27; 26; 25; 20; 12; 6; 2; 0].
Proof.
  apply (way_next 30 0 2 [29; 28; 27; 26; 25; 20; 12; 6; 2]); [by_block 1|].
  apply (way_next 30 2 6 [29; 28; 27; 26; 25; 20; 12; 6]); [by_block 2|].
  apply (way_next 30 6 12 [29; 28; 27; 26; 25; 20; 12]); [by_block 3|].
  apply (way_next 30 12 20 [29; 28; 27; 26; 25; 20]); [by_block 4|].
  apply (way_next 30 20 25 [29; 28; 27; 26; 25]); [by_block 5|].
  apply (way_next 30 25 26 [29; 28; 27; 26]); [by_block 5|].
  apply (way_next 30 26 27 [29; 28; 27]); [by_block 5|].
  apply (way_next 30 27 28 [29; 28]); [by_block 5|].
  apply (way_next 30 28 29 [29]); [by_block 5|]. now apply way_last.
Qed.
Example C120_ways_example : fresh KNull thirty /\ is_head thirty 29 /\ line thirty 29 (rev (seq 0 30)) /\
  numbers (rev (seq 0 30)) 0 0 /\ length (rev (seq 0 30)) = 30 /\
  m_path_to thirty_tree 0 = Ok (Some [29; 28; 27; 26; 25; 20; 12; 6; 2; 0]) /\
  moves 30 20 /\ m_get_split thirty_tree 29 = Ok (20, [29; 28; 27; 26; 25; 20]).
Proof.
  destruct C66_exact_example as [A [B [C [_ [_ [G _]]]]]].
  split; [exact A|split; [exact B|split; [exact C|split; [reflexivity|split; [reflexivity|]]]]].
  split; [vm_compute; reflexivity|split; [exists 5; lia|exact G]].
Qed.

(** version 2 was kept as a diff from versions 3, 4 and 6; the last version is not kept as a
    diff *)
Definition thirty_log := fst (diffs (run (fun _ => false) KNull (dict_store nat) (logged (dict_store nat)) (memory_tree nat) v_empty thirty)).
Example C121_example : write_list 30 2 [3; 4; 6] /\
  map (fun t => times t thirty_log) (seq 0 30) =
    [2; 2; 3; 3; 1; 2; 3; 3; 3; 1; 1; 2; 3; 3; 3; 3; 1; 1; 1; 2; 2; 2; 2; 2; 2; 1; 1; 1; 1; 0] /\
  length thirty_log = fold_right Nat.add 0 (map (fun t => times t thirty_log) (seq 0 30)).
Proof.
  split; [|split; vm_compute; reflexivity]. split; [repeat constructor; cbn; lia|]. intros j. split.
  - intros [<-|[<-|[<-|[]]]]; (split; [lia|by_block 2]).
  - intros [L [H [k [A [B Q]]]]]. assert (k = 2) by nia. subst k. cbn [In]. lia.
Qed.

Print Assumptions C120_ways.
Print Assumptions C120_ways_db.
Print Assumptions C120_determined.
Print Assumptions C121_writes.
Print Assumptions C121_writes_db.
