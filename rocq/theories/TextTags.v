(** The classes of /repo/src/gaspra/db_tree.py and db_collections.py with tags that are not
    str.  The protocol allows any Hashable (tree.py:5-22); the columns for tags are TEXT
    (db_tree_sql.py:1-12, db_collections.py:47), so sqlite stores an int as its digits,
    compares a bound int as its digits, and gives back the str.

    Not modelled: tags sqlite does not accept (tuples, ints beyond 64 bits, str with
    surrogates), and floats. *)
From Verif Require Import Base Tree Versions DbTree Json Manifest.

(** the affinity of a TEXT column *)
Definition column_text (k : tag) : list Z := match k with TStr s => s | TInt n => dump_int n end.

(** DBTree.  [new_get_split] (db_tree.py:116-126) starts with the tag it was given; the
    others come from the table. *)
Definition text_tree : tree_impl tag :=
  mkTree tag (table (list Z)) []
    (fun t k => d_contains t (column_text k))
    (fun t k => let* b := d_base_version t (column_text k) in Ok (option_map TStr b))
    (fun k base t => d_add (column_text k) (option_map column_text base) t)
    (fun t k => let* p := d_path_to t (column_text k) in Ok (option_map (map TStr) p))
    (fun k q t => d_change_parent (column_text k) (column_text q) t)
    (fun t k => let* sp := d_get_split t (column_text k) in
                let p := k :: map TStr (tl (snd sp)) in Ok (last p k, p)).
(** DBCollection *)
Definition text_store (place : rows (K := list Z) (V := list Z) -> nat) : store tag :=
  mkStore tag (rows (K := list Z) (V := list Z)) []
    (fun t k => c_getitem t (column_text k))
    (fun k contents t => c_setitem (place t) (column_text k) contents t)
    (fun k t => c_delitem (column_text k) t)
    (fun t k => c_contains t (column_text k)) None.

(** the same call with the texts of the tags *)
Definition in_text (a : tag * list Z * option tag) : list Z * list Z * option (list Z) :=
  let '(k, b, base) := a in (column_text k, b, option_map column_text base).
