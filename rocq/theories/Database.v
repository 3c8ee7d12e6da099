(** Several DBCollection and DBTree objects on one database
    (/repo/src/gaspra/db_collections.py, db_tree.py, db_connections.py:6-13, where all
    objects of a program get the same connection to the same file).

    The database maps names to what has that name; sqlite does not tell the cases of
    ASCII letters apart, so names are folded first.  Tables and indexes share the names.
    The table names handed to DBCollection are plain identifiers (letters, digits and
    underscores, no keyword, not beginning with "sqlite_"): the class puts them into the
    statements as they are, and other names are not modelled.  Statements that define
    tables are not part of a transaction (the default of the module sqlite3).
    Not modelled: other processes, failures of the database itself. *)
From Coq Require Import String.
From Verif Require Import Base Tree Versions DbTree Markup.
Local Open Scope Z_scope.
Local Open Scope list_scope.

Section Database.
Context {K V : Type} {E : Teq K}.

Inductive relation := RGraph (t : table K) | RColl (t : rows (K := K) (V := V)) | RIndex.
Definition fold_name (n : list Z) : list Z := map (fun c => if (65 <=? c) && (c <=? 90) then c + 32 else c) n.
(** folded names *)
Definition database := list Z -> option relation.
Definition upd (d : database) (n : list Z) (r : option relation) : database :=
  fun m => if teq n m then r else d m.

Definition graph_name : list Z := str "graph".
Definition index1 : list Z := str "graph_parent".
Definition index2 : list Z := str "graph_parent_rid".

(** DROP TABLE IF EXISTS: an index of that name is no table; the indexes of a table go
    with it, and only [graph] has indexes *)
Definition drop_index (d : database) (n : list Z) : database :=
  match d n with Some RIndex => upd d n None | _ => d end.
Definition drop (d : database) (n : list Z) : database :=
  match d n with
  | Some (RGraph _) | Some (RColl _) =>
    let d := upd d n None in
    if teq n graph_name then drop_index (drop_index d index1) index2 else d
  | _ => d
  end.
(** CREATE TABLE and CREATE INDEX: a table or index of that name is an error *)
Definition create (d : database) (n : list Z) (r : relation) : database * res unit :=
  match d n with Some _ => (d, Err OperationalError) | None => (upd d n (Some r), Ok tt) end.

(** what a call returns *)
Inductive answer := ANone | ABool (b : bool) | ANat (n : nat) | AData (v : V) | ATag (t : option K)
| ATags (l : list K) | APath (p : option (list K)) | ASplit (s : K * list K).
(** the calls *)
Inductive call :=
| NewCollection (n : list Z)
| GetItem (n : list Z) (tag : K) | SetItem (n : list Z) (place : nat) (tag : K) (v : V) | DelItem (n : list Z) (tag : K)
| Iter (n : list Z) | Len (n : list Z) | Contains (n : list Z) (tag : K)
| NewTree
| TContains (tag : K) | TBase (tag : K) | TAdd (tag : K) (base : option K) | TPath (tag : K)
| TChange (tag parent : K) | TSplit (tag : K).

(** a statement on the table of a DBCollection; it fails when there is no such table, or
    one without the columns tag and data *)
Definition on_rows (d : database) (n : list Z) (f : rows -> rows * res answer) : database * res answer :=
  let n := fold_name n in
  match d n with
  | Some (RColl t) => let '(t, r) := f t in (upd d n (Some (RColl t)), r)
  | _ => (d, Err OperationalError)
  end.
Definition on_graph (d : database) (f : table K -> table K * res answer) : database * res answer :=
  match d graph_name with
  | Some (RGraph t) => let '(t, r) := f t in (upd d graph_name (Some (RGraph t)), r)
  | _ => (d, Err OperationalError)
  end.
Definition answered {A} (g : A -> answer) (r : res A) : res answer := let* x := r in Ok (g x).

(** db_collections.py:43-47, __init__ *)
Definition new_collection (n : list Z) (d : database) : database * res answer :=
  let n := fold_name n in
  let '(d, r) := create (drop d n) n (RColl []) in (d, answered (fun _ => ANone) r).
(** db_tree.py:30-39, __init__ *)
Definition new_tree (d : database) : database * res answer :=
  let '(d, r) := create (drop d graph_name) graph_name (RGraph []) in
  match r with
  | Err e => (d, Err e)
  | Ok _ =>
    let '(d, r) := create d index1 RIndex in
    match r with
    | Err e => (d, Err e)
    | Ok _ => let '(d, r) := create d index2 RIndex in (d, answered (fun _ => ANone) r)
    end
  end.

Definition run (c : call) (d : database) : database * res answer :=
  match c with
  | NewCollection n => new_collection n d
  | GetItem n tag => on_rows d n (fun t => (t, answered AData (c_getitem t tag)))
  | SetItem n place tag v => on_rows d n (fun t => (c_setitem place tag v t, Ok ANone))
  | DelItem n tag => on_rows d n (fun t => let '(t, r) := c_delitem tag t in (t, answered (fun _ => ANone) r))
  | Iter n => on_rows d n (fun t => (t, Ok (ATags (c_iter t))))
  | Len n => on_rows d n (fun t => (t, Ok (ANat (c_len t))))
  | Contains n tag => on_rows d n (fun t => (t, Ok (ABool (c_contains t tag))))
  | NewTree => new_tree d
  | TContains tag => on_graph d (fun t => (t, Ok (ABool (d_contains t tag))))
  | TBase tag => on_graph d (fun t => (t, answered ATag (d_base_version t tag)))
  | TAdd tag base => on_graph d (fun t => let '(t, r) := d_add tag base t in (t, answered (fun _ => ANone) r))
  | TPath tag => on_graph d (fun t => (t, answered APath (d_path_to t tag)))
  | TChange tag parent => on_graph d (fun t => let '(t, r) := d_change_parent tag parent t in (t, answered (fun _ => ANone) r))
  | TSplit tag => on_graph d (fun t => (t, answered ASplit (d_get_split t tag)))
  end.
Fixpoint run_all (l : list call) (d : database) : list (res answer) :=
  match l with
  | [] => []
  | c :: l => let '(d, r) := run c d in r :: run_all l d
  end.
Fixpoint after_all (l : list call) (d : database) : database :=
  match l with
  | [] => d
  | c :: l => after_all l (fst (run c d))
  end.
(** a new file *)
Definition empty_database : database := fun _ => None.
End Database.
