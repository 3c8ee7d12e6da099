(** Model of /repo/src/gaspra/db_tree.py and the SQL statements it uses
    (db_tree_sql.py), and of db_collections.py.

    The table [graph] is the list of its rows in the order of their insertion.  Rows
    are never deleted, so sqlite numbers them in this order; the model numbers them
    from 0 where sqlite starts from 1, which is of no consequence since row numbers
    are only compared.  Tags are str (TEXT columns turn numbers into str).  A [with]
    block on a connection commits, or rolls back when an exception leaves it, so a
    method that raises in its block leaves the table as it was.  Not modelled: the
    indexes, failures of the database itself, other users of the database.  The
    unused method old_get_split is in DbTreeOld.v; _old_update_metrics, also unused, is
    not modelled. *)
From Verif Require Import Base Tree Versions.

Section DbTree.
Context {K : Type} {E : Teq K}.

(** db_tree_sql.py:1-12, a row of [graph]; the row numbers are [option nat]. *)
Record row := mkRow {
  r_tag : K;
  r_parent : option K;
  r_parent_rid : option nat;
  r_child0 : option nat;
  r_child1 : option nat;
  r_height : nat;
  r_size : nat;
  r_base : option K
}.
Definition table := list row.

(** [SELECT rowid FROM graph WHERE tag = ?] (db_tree_sql.py:27-30) *)
Fixpoint rid_from (i : nat) (t : table) (tag : K) : option nat :=
  match t with
  | [] => None
  | r :: t => if teq (r_tag r) tag then Some i else rid_from (S i) t tag
  end.
Definition rid_of (t : table) (tag : K) : option nat := rid_from 0 t tag.
Definition row_of (t : table) (tag : K) : option (nat * row) :=
  match rid_of t tag with
  | None => None
  | Some i => match nth_error t i with Some r => Some (i, r) | None => None end
  end.

(** db_tree.py:41-44, __contains__ *)
Definition d_contains (t : table) (tag : K) : bool :=
  match row_of t tag with Some _ => true | None => false end.
(** db_tree.py:46-49, base_version; [None[0]] is a TypeError *)
Definition d_base_version (t : table) (tag : K) : res (option K) :=
  match row_of t tag with Some (_, r) => Ok (r_base r) | None => Err TypeError end.
(** db_tree.py:51-53, add, with INSERT (db_tree_sql.py:22-25); the tag is the primary
    key *)
Definition d_add (tag : K) (existing_head : option K) (t : table) : table * res unit :=
  match row_of t tag with
  | Some _ => (t, Err IntegrityError)
  | None => (t ++ [mkRow tag None None None None 1 1 existing_head], Ok tt)
  end.

(** db_tree.py:55-68, path_to, with PATH_TO (db_tree_sql.py:32-46): the recursive
    query collects the rows on the way up.  For an unknown tag it gives the empty
    path.  The loop visits a row twice iff it never ends. *)
Fixpoint d_path_loop (fuel : nat) (t : table) (rid : option nat) (path : list K) : res (list K) :=
  match rid with
  | None => Ok path
  | Some i =>
    match nth_error t i with
    | None => Ok path
    | Some r =>
      match fuel with
      | 0 => Err OutOfFuel
      | S fuel => d_path_loop fuel t (r_parent_rid r) (path ++ [r_tag r])
      end
    end
  end.
Definition d_path_to (t : table) (tag : K) : res (option (list K)) :=
  let* p := d_path_loop (length t) t (rid_of t tag) [] in Ok (Some (rev p)).

(** the updates of single columns *)
Definition set_parents (p : option K) (i : option nat) (r : row) : row :=
  mkRow (r_tag r) p i (r_child0 r) (r_child1 r) (r_height r) (r_size r) (r_base r).
Definition set_child0 (c : option nat) (r : row) : row :=
  mkRow (r_tag r) (r_parent r) (r_parent_rid r) c (r_child1 r) (r_height r) (r_size r) (r_base r).
Definition set_child1 (c : option nat) (r : row) : row :=
  mkRow (r_tag r) (r_parent r) (r_parent_rid r) (r_child0 r) c (r_height r) (r_size r) (r_base r).
Definition set_row_metrics (h z : nat) (r : row) : row :=
  mkRow (r_tag r) (r_parent r) (r_parent_rid r) (r_child0 r) (r_child1 r) h z (r_base r).
(** REMOVE_IF_CHILDx (db_tree_sql.py:58-62) on the row at hand; NULL equals nothing *)
Definition is_rid (c : option nat) (i : nat) : bool := match c with Some j => j =? i | None => false end.
Definition remove_if_child0 (i : nat) (r : row) : row := if is_rid (r_child0 r) i then set_child0 None r else r.
Definition remove_if_child1 (i : nat) (r : row) : row := if is_rid (r_child1 r) i then set_child1 None r else r.
Definition update_at (rid : option nat) (f : row -> row) (t : table) : table :=
  match rid with Some i => lupd t i f | None => t end.

(** GET_NODE_METRICS (db_tree_sql.py:104-137): the two joins give one row each, with
    NULLs when there is no child; max and sum pass over NULLs. *)
Definition slot_metrics (t : table) (c : option nat) : nat * nat :=
  match c with
  | None => (0, 0)
  | Some i => match nth_error t i with Some r => (r_height r, r_size r) | None => (0, 0) end
  end.
Definition node_metrics (t : table) (r : row) : nat * nat :=
  let '(h0, z0) := slot_metrics t (r_child0 r) in
  let '(h1, z1) := slot_metrics t (r_child1 r) in
  (1 + Nat.max h0 h1, 1 + (z0 + z1)).
(** db_tree.py:127-137, _new_update_metrics; the commit comes at the end of the loop *)
Fixpoint d_update_loop (fuel : nat) (rid : option nat) (t : table) : res table :=
  match rid with
  | None => Ok t
  | Some i =>
    match nth_error t i with
    | None => Err TypeError
    | Some r =>
      match fuel with
      | 0 => Err OutOfFuel
      | S fuel =>
        let '(h, z) := node_metrics t r in
        d_update_loop fuel (r_parent_rid r) (lupd t i (set_row_metrics h z))
      end
    end
  end.
Definition d_update_metrics (rid : option nat) (t : table) : table * res unit :=
  match d_update_loop (length t) rid t with
  | Ok t' => (t', Ok tt)
  | Err e => (t, Err e)
  end.

(** db_tree.py:70-111, change_parent *)
Definition d_change_parent (tag new_parent : K) (t : table) : table * res unit :=
  match row_of t tag with
  | None => (t, Err TypeError)                                              (* 73-77 *)
  | Some (tag_rid, r) =>
    let original_parent_rid := r_parent_rid r in                            (* 79-83 *)
    let t1 := update_at original_parent_rid (remove_if_child0 tag_rid) t in (* 85-87 *)
    let t2 := update_at original_parent_rid (remove_if_child1 tag_rid) t1 in (* 88-90 *)
    match rid_of t2 new_parent with
    | None => (t, Err TypeError)                                            (* 93-97 *)
    | Some new_parent_rid =>
      let t3 := lupd t2 tag_rid (set_parents (Some new_parent) (Some new_parent_rid)) in (* 100-102 *)
      let t4 := lupd t3 new_parent_rid                                      (* 105-108 *)
                  (match r_parent r with
                   | None => set_child0 (Some tag_rid)
                   | Some _ => set_child1 (Some tag_rid)
                   end) in
      match d_update_metrics original_parent_rid t4 with                    (* 110 *)
      | (t5, Err e) => (t5, Err e)
      | (t5, Ok _) => d_update_metrics (Some new_parent_rid) t5             (* 111 *)
      end
    end
  end.

(** GET_BEST_PATH (db_tree_sql.py:70-102): of the one or two children the one with
    the largest (height, rowid) *)
Definition slot_row (t : table) (c : option nat) : list (nat * row) :=
  match c with
  | None => []
  | Some i => match nth_error t i with Some r => [(i, r)] | None => [] end
  end.
Definition better (a b : nat * row) : bool :=
  (r_height (snd b) <? r_height (snd a)) ||
  ((r_height (snd b) =? r_height (snd a)) && (fst b <? fst a)).
Definition best_path (t : table) (r : row) : option (nat * row) :=
  match slot_row t (r_child0 r) ++ slot_row t (r_child1 r) with
  | [] => None
  | [a] => Some a
  | a :: b :: _ => Some (if better a b then a else b)
  end.
(** db_tree.py:113-125, get_split; the heights bound the rounds *)
Fixpoint d_split_loop (fuel depth : nat) (t : table) (tag : K) (r : row) (path : list K) : res (K * list K) :=
  if depth <? r_height r then
    match fuel with
    | 0 => Err OutOfFuel
    | S fuel =>
      match best_path t r with
      | None => Err TypeError
      | Some (_, c) => d_split_loop fuel (S depth) t (r_tag c) c (path ++ [r_tag c])
      end
    end
  else Ok (tag, path).
Definition d_get_split (t : table) (tag : K) : res (K * list K) :=
  match row_of t tag with
  | None => Err TypeError
  | Some (_, r) => d_split_loop (fold_right Nat.max 0 (map r_height t)) 1 t tag r [tag]
  end.
End DbTree.
Arguments row : clear implicits.
Arguments table : clear implicits.

Definition db_tree (K : Type) {E : Teq K} : tree_impl K :=
  mkTree K (table K) [] d_contains d_base_version d_add d_path_to d_change_parent d_get_split.

(** db_collections.py: the table (tag TEXT PRIMARY KEY, data BLOB), rows in the order
    in which they come out of [SELECT tag FROM table]. *)
Section DbCollection.
Context {K V : Type} {E : Teq K}.
Definition rows := list (K * V).

(** db_collections.py:7-11, SELECT; the primary key makes the row unique *)
Definition select (t : rows) (tag : K) : option V :=
  match filter (fun r => teq (fst r) tag) t with
  | [] => None
  | (_, data) :: _ => Some data
  end.
(** 49-56, __getitem__ *)
Definition c_getitem (t : rows) (tag : K) : res V :=
  match select t tag with Some data => Ok data | None => Err KeyError end.
(** 58-61, __setitem__ with INSERT .. ON CONFLICT DO UPDATE (24-29).  Where in the
    table sqlite puts a new row is left open: [place] is any position. *)
Definition c_setitem (place : nat) (tag : K) (contents : V) (t : rows) : rows :=
  match select t tag with
  | None => firstn place t ++ (tag, contents) :: skipn place t
  | Some _ => map (fun r => if teq (fst r) tag then (fst r, contents) else r) t
  end.
(** 63-67, __delitem__; rowcount is the number of rows deleted *)
Definition c_delitem (tag : K) (t : rows) : rows * res unit :=
  match filter (fun r => teq (fst r) tag) t with
  | [] => (t, Err KeyError)
  | _ :: _ => (filter (fun r => negb (teq (fst r) tag)) t, Ok tt)
  end.
(** 69-74, __iter__; 76-79, __len__; 81-84, __contains__ *)
Definition c_iter (t : rows) : list K := map fst t.
Definition c_len (t : rows) : nat := length t.
Definition c_contains (t : rows) (tag : K) : bool :=
  match select t tag with Some _ => true | None => false end.
End DbCollection.

(** A DBCollection as a store; it has no method [get]. *)
Definition db_store (K : Type) {E : Teq K} (place : rows (K := K) (V := list Z) -> nat) : store K :=
  mkStore K (rows (K := K) (V := list Z)) []
    c_getitem (fun tag contents t => c_setitem (place t) tag contents t) c_delitem c_contains None.
