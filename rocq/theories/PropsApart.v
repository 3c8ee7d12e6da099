(** C134 for damage to the tree as well, and C135: an add that stops anywhere harms no other line. *)
From Coq Require Import ZArith Lia.
From Verif Require Import Base Changesets Serialize Tokenizers SpecTokenizers Tree Versions SpecVersions SpecLine SpecLineage
  SpecElsewhere SpecInterrupted SpecCommits DbTree DbTreeProofs SpecDb DbCommits VersionsInv DbVersions VersionsMore VersionsElsewhere VersionsApart
  InterruptedElsewhere PropsVersions PropsFrame PropsAlone PropsElsewhere.
Local Open Scope nat_scope.

Section Theorems.
Context {K : Type} {E : Teq K} {O : TeqOk K}.
Variable re_w : Z -> bool.
Variable tk : tkind.
Notation D := (dict_store K).
Notation C := (db_store K).
Notation M := (memory_tree K).
Notation T := (db_tree K).

(** C134 with damage to the tree: the nodes of [X] may be anything, too, with any parent and
    children.  Their number is kept, since new nodes get their numbers from it. *)
Theorem C134_trees : forall (X : K -> Prop) h hs ds tr, tk <> KLine -> fresh tk h -> whole_lines h X ->
  NoDup (map fst hs) -> NoDup (map fst ds) ->
  let v := run re_w tk D D M v_empty h in
  (forall u, ~ X u -> dget hs u = dget (heads v) u) -> (forall u, ~ X u -> dget ds u = dget (diffs v) u) ->
  length tr = length (tree v : nodes K) -> (forall u, ~ X u -> dget tr u = dget (tree v : nodes K) u) ->
  forall g, fresh tk (h ++ g) -> Forall (away X) g ->
  let w := run re_w tk D D M (@mkV K D D M hs ds tr) g in let v' := run re_w tk D D M v_empty (h ++ g) in
  (forall t b base, In (t, b, base) (h ++ g) -> ~ X t -> get re_w tk D D M w t = Ok (Some b)) /\
  (forall t, ~ X t -> get re_w tk D D M w t = get re_w tk D D M v' t /\
     dget (heads w) t = dget (heads v') t /\ dget (diffs w) t = dget (diffs v') t) /\
  (forall a, away X a -> add_result re_w tk D D M w a = add_result re_w tk D D M v' a).
Proof. exact (fun X => apart_memory re_w tk D D dict_law dict_law X). Qed.
(** On a database the rows of [X] may be anything, except for their tags. *)
Theorem C134_trees_db : forall place1 place2 (X : K -> Prop) h hs ds tr, tk <> KLine -> fresh tk h -> whole_lines h X ->
  NoDup (map fst hs) -> NoDup (map fst ds) ->
  let v := run re_w tk (C place1) (C place2) T v_empty h in
  (forall u, ~ X u -> select hs u = select (heads v) u) -> (forall u, ~ X u -> select ds u = select (diffs v) u) ->
  map r_tag tr = map r_tag (tree v : table K) ->
  (forall i r, nth_error (tree v : table K) i = Some r -> ~ X (r_tag r) -> nth_error tr i = Some r) ->
  forall g, fresh tk (h ++ g) -> Forall (away X) g ->
  let w := run re_w tk (C place1) (C place2) T (@mkV K (C place1) (C place2) T hs ds tr) g in
  let v' := run re_w tk (C place1) (C place2) T v_empty (h ++ g) in
  (forall t b base, In (t, b, base) (h ++ g) -> ~ X t -> get re_w tk (C place1) (C place2) T w t = Ok (Some b)) /\
  (forall t, ~ X t -> get re_w tk (C place1) (C place2) T w t = get re_w tk (C place1) (C place2) T v' t /\
     select (heads w) t = select (heads v') t /\ select (diffs w) t = select (diffs v') t) /\
  (forall a, away X a ->
     add_result re_w tk (C place1) (C place2) T w a = add_result re_w tk (C place1) (C place2) T v' a).
Proof. exact (fun p1 p2 X => apart_db re_w tk (C p1) (C p2) (db_store_law p1) (db_store_law p2) X). Qed.

(** C135: an add stops after any of its updates.  [X] is made of whole lines and contains the
    new version.  Then outside of [X] the object can be used without limit. *)
Theorem C135_stopped : forall (X : K -> Prop) h a, tk <> KLine -> valid tk (h ++ [a]) -> whole_lines (h ++ [a]) X -> X (tag_of a) ->
  let v := run re_w tk D D M v_empty h in let n := length (add_trace re_w tk D D M v a) in
  forall i w, nth_error (add_trace re_w tk D D M v a) i = Some w ->
  goes_on_outside re_w tk D D M X (reached h a i n) w.
Proof. exact (fun X h a Hk => stopped_memory re_w tk D D dict_law dict_law X Hk h a). Qed.
Theorem C135_stopped_db : forall place1 place2 (X : K -> Prop) h a, tk <> KLine -> valid tk (h ++ [a]) -> whole_lines (h ++ [a]) X -> X (tag_of a) ->
  let v := run re_w tk (C place1) (C place2) T v_empty h in
  let n := length (add_trace re_w tk (C place1) (C place2) T v a) in
  forall i w, nth_error (add_trace re_w tk (C place1) (C place2) T v a) i = Some w ->
  goes_on_outside re_w tk (C place1) (C place2) T X (reached h a i n) w.
Proof. exact (fun p1 p2 X h a Hk => stopped_db re_w tk (C p1) (C p2) (db_store_law p1) (db_store_law p2) X Hk h a). Qed.
(** The same for a process that stops between any two commits. *)
Theorem C135_commits : forall place1 place2 (X : K -> Prop) h a, tk <> KLine -> valid tk (h ++ [a]) -> whole_lines (h ++ [a]) X -> X (tag_of a) ->
  let v := run re_w tk (C place1) (C place2) T v_empty h in
  let n := length (commits re_w tk (C place1) (C place2) v a) in
  forall i w, nth_error (commits re_w tk (C place1) (C place2) v a) i = Some w ->
  goes_on_outside re_w tk (C place1) (C place2) T X (reached_commit h a i n) w.
Proof. exact (fun p1 p2 X h a Hk => stopped_commits re_w tk (C p1) (C p2) (db_store_law p1) (db_store_law p2) X Hk h a). Qed.
End Theorems.

(** * Examples *)
(** the nodes of the even line get a parent in the odd line, and children there *)
Definition spoil (s : nodes nat) : nodes nat :=
  map (fun e => if Nat.even (fst e) then (fst e, mkNode 7 (Some 3) [1; 99] 50 0 None) else e) s.
Example C134_example_trees : let s := tree (kept in_turns) : nodes nat in
  length (spoil s) = length s /\ (forall u, ~ even u -> dget (spoil s) u = dget s u) /\ spoil s <> s.
Proof.
  cbn zeta. split; [apply map_length|]. split; [|vm_compute; discriminate]. intros u Hu. generalize (tree (kept in_turns) : nodes nat) as s.
  induction s as [|[k n] s IH]; [reflexivity|]. cbn [spoil map fst dget]. destruct (Nat.even k) eqn:Q; cbn [dget]; fold (spoil s); rewrite IH; [|reflexivity].
  destruct (teq_spec k u) as [->|]; [contradiction|reflexivity].
Qed.
Example C134_example_trees_gets : let v := kept in_turns in
  let w' := fold_left (add_state0 KNull) odd_more (@mkV nat (dict_store nat) (dict_store nat) (memory_tree nat) (odd_only (heads v)) (odd_only (diffs v)) (spoil (tree v))) in
  map (get0 KNull w') [1; 3; 9; 13] = [Ok (Some [65]%Z); Ok (Some [65; 66]%Z); Ok (Some [67]%Z); Ok (Some [68]%Z)].
Proof. vm_compute. reflexivity. Qed.

(** an add to the even line that splits: after its third update version 6 reads wrong (C125) *)
Definition even_more : adding nat := (10, [98; 97; 98]%Z, Some 8).
Example C135_example_valid : valid KNull (in_turns ++ [even_more]) /\ whole_lines (in_turns ++ [even_more]) even /\ even (tag_of even_more).
Proof.
  assert (V : valid KNull (in_turns ++ [even_more])) by (unfold in_turns, even_more; cbn [app]; valid_tac; any_head).
  split; [exact V|]. split; [|reflexivity]. intros x y B. apply (VersionsOrder.valid_built KNull) in B; [|exact V]. destruct B as [b B].
  unfold even. cbn in B. repeat (destruct B as [B|B]; [try discriminate; injection B as <- _ <-; reflexivity|]). destruct B.
Qed.
Example C135_example : let v := kept in_turns in length (add_trace0 KNull v even_more) = 8 /\
  exists w, nth_error (add_trace0 KNull v even_more) 2 = Some w /\
  map (fun t => match get0 KNull w t, get0 KNull v t with Ok (Some a), Ok (Some b) => if list_eq_dec Z.eq_dec a b then true else false | _, _ => false end)
    [1; 3; 5; 7; 9; 2; 4; 6; 8] = [true; true; true; true; true; true; true; false; true] /\
  map (get0 KNull (fold_left (add_state0 KNull) odd_more w)) [1; 9; 13] = [Ok (Some [65]%Z); Ok (Some [67]%Z); Ok (Some [68]%Z)].
Proof. cbn zeta. split; [vm_compute; reflexivity|]. eexists. split; [vm_compute; reflexivity|]. split; vm_compute; reflexivity. Qed.

Print Assumptions C134_trees.
Print Assumptions C134_trees_db.
Print Assumptions C135_stopped.
Print Assumptions C135_stopped_db.
Print Assumptions C135_commits.
