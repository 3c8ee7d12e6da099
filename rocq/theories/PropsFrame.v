(** Theorem C86: an add touches one branch, and there at most two stored diffs. *)
From Coq Require Import ZArith Lia.
From Verif Require Import Base Changesets Serialize Tokenizers SpecTokenizers Tree TreeProofs
  Versions SpecVersions VersionsInv VersionsProofs VersionsMore DbTree SpecDb DbVersions VersionsFrame PropsVersions.
Local Open Scope nat_scope.

Section Theorems.
Context {K : Type} {E : Teq K} {O : TeqOk K}.
Variable re_w : Z -> bool.
Variable tk : tkind.
Notation D := (dict_store K).
Notation C := (db_store K).
Notation M := (memory_tree K).
Notation T := (db_tree K).

(** C86: the new version goes on top of the head [x].  There is one version [sp] such
    that a way through [sp] is cut off above [sp], the other ways of the branch of [x]
    become one step longer, and nothing else is different but the entries of [x] and
    [sp]. *)
Theorem C86_frame : forall h tag b x, tk <> KLine -> fresh tk (h ++ [(tag, b, Some x)]) -> is_head h x ->
  let v := run re_w tk D D M v_empty h in
  let v' := run re_w tk D D M v_empty (h ++ [(tag, b, Some x)]) in
  exists sp, added h sp /\ m_path_to (tree v') tag = Ok (Some [tag]) /\
    (forall u p, added h u -> m_path_to (tree v) u = Ok (Some p) -> ~ In x p ->
       m_path_to (tree v') u = Ok (Some p)) /\
    (forall u p q, added h u -> m_path_to (tree v) u = Ok (Some (p ++ sp :: q)) ->
       m_path_to (tree v') u = Ok (Some (tag :: sp :: q))) /\
    (forall u p, added h u -> m_path_to (tree v) u = Ok (Some p) -> In x p -> ~ In sp p ->
       m_path_to (tree v') u = Ok (Some (tag :: p))) /\
    (forall u, added h u -> u <> x -> dget (heads v') u = dget (heads v) u) /\
    (forall u, added h u -> u <> x -> u <> sp -> dget (diffs v') u = dget (diffs v) u).
Proof. exact (frame_memory re_w tk). Qed.
(** an add without a base, or one that raises because its base is no head, leaves
    all entries of the other versions as they were *)
Theorem C86_frame_none : forall h tag b base, tk <> KLine -> fresh tk (h ++ [(tag, b, base)]) ->
  (forall x, base = Some x -> ~ is_head h x) ->
  let v := run re_w tk D D M v_empty h in
  let v' := run re_w tk D D M v_empty (h ++ [(tag, b, base)]) in
  forall u, added h u -> m_path_to (tree v') u = m_path_to (tree v) u /\
    dget (heads v') u = dget (heads v) u /\ dget (diffs v') u = dget (diffs v) u.
Proof. exact (frame_none_memory re_w tk). Qed.
(** the same on a database *)
Theorem C86_frame_db : forall place1 place2 h tag b x,
  tk <> KLine -> fresh tk (h ++ [(tag, b, Some x)]) -> is_head h x ->
  let v := run re_w tk (C place1) (C place2) T v_empty h in
  let v' := run re_w tk (C place1) (C place2) T v_empty (h ++ [(tag, b, Some x)]) in
  exists sp, added h sp /\ d_path_to (tree v') tag = Ok (Some [tag]) /\
    (forall u p, added h u -> d_path_to (tree v) u = Ok (Some p) -> ~ In x p ->
       d_path_to (tree v') u = Ok (Some p)) /\
    (forall u p q, added h u -> d_path_to (tree v) u = Ok (Some (p ++ sp :: q)) ->
       d_path_to (tree v') u = Ok (Some (tag :: sp :: q))) /\
    (forall u p, added h u -> d_path_to (tree v) u = Ok (Some p) -> In x p -> ~ In sp p ->
       d_path_to (tree v') u = Ok (Some (tag :: p))) /\
    (forall u, added h u -> u <> x -> s_get (C place1) (heads v') u = s_get (C place1) (heads v) u) /\
    (forall u, added h u -> u <> x -> u <> sp -> s_get (C place2) (diffs v') u = s_get (C place2) (diffs v) u).
Proof. exact (frame_db re_w tk). Qed.
Theorem C86_frame_none_db : forall place1 place2 h tag b base, tk <> KLine -> fresh tk (h ++ [(tag, b, base)]) ->
  (forall x, base = Some x -> ~ is_head h x) ->
  let v := run re_w tk (C place1) (C place2) T v_empty h in
  let v' := run re_w tk (C place1) (C place2) T v_empty (h ++ [(tag, b, base)]) in
  forall u, added h u -> d_path_to (tree v') u = d_path_to (tree v) u /\
    s_get (C place1) (heads v') u = s_get (C place1) (heads v) u /\
    s_get (C place2) (diffs v') u = s_get (C place2) (diffs v) u.
Proof. exact (frame_none_db re_w tk). Qed.
End Theorems.
Print Assumptions C86_frame.
Print Assumptions C86_frame_none.
Print Assumptions C86_frame_db.
Print Assumptions C86_frame_none_db.

(** * Examples *)
(** Two branches: four versions of a file, and a version of another one.  A fifth
    version on the first branch splits it at version 3. *)
Definition two_branches : list (adding nat) := line_history ++ [(9, [120]%Z, None)].
Definition paths_in h := map (m_path_to (tree (run0 KNull h))) [1; 2; 3; 4; 5; 9].
Example C86_example : let h' := two_branches ++ [(5, [97]%Z, Some 4)] in
  fresh KNull h' /\ is_head two_branches 4 /\
  paths_in two_branches =
    [Ok (Some [4; 3; 1]); Ok (Some [4; 2]); Ok (Some [4; 3]); Ok (Some [4]); Ok None; Ok (Some [9])] /\
  paths_in h' =
    [Ok (Some [5; 3; 1]); Ok (Some [5; 4; 2]); Ok (Some [5; 3]); Ok (Some [5; 4]); Ok (Some [5]); Ok (Some [9])] /\
  dget (diffs (run0 KNull h')) 3 <> dget (diffs (run0 KNull two_branches)) 3 /\
  dget (diffs (run0 KNull two_branches)) 2 <> None.
Proof.
  assert (V : valid KNull (two_branches ++ [(5, [97]%Z, Some 4)])).
  { unfold two_branches, line_history; cbn [app]; valid_tac; try head_tac.
    exists [(1, [97; 10; 98; 10; 99; 10]%Z, None); (2, [97; 10; 120; 10; 99; 10]%Z, Some 1);
            (3, [97; 10; 121; 10; 99; 10; 100; 10]%Z, Some 2)], [97; 10; 122; 10; 99; 10; 100; 10]%Z, (Some 3), [(9, [120]%Z, None)].
    split; [reflexivity|cbn; intuition discriminate]. }
  split; [apply V|]. split; [exact (proj2 V two_branches (5, [97]%Z, Some 4) [] eq_refl)|].
  split; [vm_compute; reflexivity|]. split; [vm_compute; reflexivity|]. split; vm_compute; discriminate.
Qed.
(** and one that is refused *)
Example C86_example_none : let h' := line_history ++ [(5, [97]%Z, Some 2)] in
  fresh KNull h' /\ ~ is_head line_history 2 /\ add_result0 KNull (run0 KNull line_history) (5, [97]%Z, Some 2) = Err KeyError.
Proof.
  split; [|split; [|vm_compute; reflexivity]].
  - split; [repeat constructor; cbn; intuition discriminate|].
    repeat (constructor; [split; [discriminate|storable_tac]|]); constructor.
  - intros [pre [b [base [post [Q N]]]]]. destruct pre as [|? pre]; [discriminate Q|].
    destruct pre as [|? pre]; [injection Q as _ _ _ <-; apply N; now left|].
    destruct pre as [|? pre]; [discriminate Q|]. destruct pre as [|? pre]; [discriminate Q|].
    destruct pre as [|? pre]; discriminate Q.
Qed.
