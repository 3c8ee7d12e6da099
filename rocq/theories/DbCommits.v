(** The commits that [Versions.add] makes on a database.

    DbTree.v gives the outcome of each method of DBTree.  Every [with] block on a
    connection is a transaction of its own, and DBTree.change_parent runs three of them
    one after the other (db_tree.py:71-108, 110 and 111, the last two in
    _new_update_metrics, db_tree.py:131-137).  Between two of them the database is in a
    state that a process that stops there leaves behind.  All other updates of the stores
    and the tree are one transaction each (db_tree.py:52-53, db_collections.py:58-67).
    Not modelled: a transaction that is committed in part. *)
From Coq Require Import ZArith.
From Verif Require Import Base Changesets Serialize Tokenizers Tree Versions DbTree.

Section Table.
Context {K : Type} {E : Teq K}.

(** db_tree.py:70-111, change_parent: the tables after its commits, then the last table
    and the outcome.  A block that raises commits nothing. *)
Definition d_change_parent_commits (tag new_parent : K) (t : table K) : list (table K) * (table K * res unit) :=
  match row_of t tag with
  | None => ([], (t, Err TypeError))                                        (* 73-77 *)
  | Some (tag_rid, r) =>
    let original_parent_rid := r_parent_rid r in                            (* 79-83 *)
    let t1 := update_at original_parent_rid (remove_if_child0 tag_rid) t in (* 85-87 *)
    let t2 := update_at original_parent_rid (remove_if_child1 tag_rid) t1 in (* 88-90 *)
    match rid_of t2 new_parent with
    | None => ([], (t, Err TypeError))                                      (* 93-97 *)
    | Some new_parent_rid =>
      let t3 := lupd t2 tag_rid (set_parents (Some new_parent) (Some new_parent_rid)) in (* 100-102 *)
      let t4 := lupd t3 new_parent_rid                                      (* 105-108 *)
                  (match r_parent r with
                   | None => set_child0 (Some tag_rid)
                   | Some _ => set_child1 (Some tag_rid)
                   end) in
      match d_update_metrics original_parent_rid t4 with                    (* 110 *)
      | (t5, Err e) => ([t4], (t5, Err e))
      | (t5, Ok _) =>
        match d_update_metrics (Some new_parent_rid) t5 with                (* 111 *)
        | (t6, Err e) => ([t4; t5], (t6, Err e))
        | (t6, Ok _) => ([t4; t5; t6], (t6, Ok tt))
        end
      end
    end
  end.
End Table.

Section Commits.
Context {K : Type} {E : Teq K}.
Variable re_w : Z -> bool.
Variable tk : tkind.
Variables HS DS : store K.
Notation TR := (db_tree K).
Notation vm := (vm HS DS TR).
Notation vbind := (vbind HS DS TR).
Notation look := (look HS DS TR).
Notation make_changeset := (make_changeset re_w tk).

(** change_parent as a computation that shows all its commits *)
Definition on_commits (tag new_parent : K) : vm unit := fun v =>
  let '(ts, (t, r)) := d_change_parent_commits tag new_parent (tree v) in
  (map (fun t => mkV (heads v) (diffs v) (t : tree_t TR)) ts, (mkV (heads v) (diffs v) (t : tree_t TR), r)).

(** versions.py:81-92, [_add_edge], with [move] in the place of change_parent *)
Definition add_edge_by (move : K -> K -> vm unit) (parent_tag child_tag : K) (changeset : list (pitem Z)) : vm unit :=
  vbind (look (fun _ => serialize_changeset changeset)) (fun d =>
  vbind (set_diff HS DS TR child_tag d) (fun _ =>
  vbind (move child_tag parent_tag) (fun _ =>
  vbind (look (fun v => Ok (s_mem HS (heads v) child_tag))) (fun is_head =>
  if is_head then del_head HS DS TR child_tag else vret HS DS TR tt)))).

(** versions.py:34-63, [add], with [move] in the place of change_parent *)
Definition add_by (move : K -> K -> vm unit) (tag : K) (version : list Z) (existing_head : option K) : vm unit :=
  vbind (set_head HS DS TR tag version) (fun _ =>                                   (* 35 *)
  vbind (on_tree HS DS TR (tr_add TR tag existing_head)) (fun _ =>                  (* 36 *)
  match existing_head with
  | None => vret HS DS TR tt
  | Some h =>
    vbind (look (fun v => tr_get_split TR (tree v) h)) (fun sp =>                   (* 40 *)
    vbind (if teq (fst sp) h then vret HS DS TR tt else                             (* 45 *)
           vbind (look (fun v => retrieve_using_path re_w tk HS DS TR v (snd sp))) (fun split_version =>  (* 46 *)
           vbind (look (fun _ => make_changeset version split_version)) (fun cs =>  (* 50 *)
           vbind (add_edge_by move tag (fst sp) cs) (fun _ =>                       (* 47 *)
           move (fst sp) tag)))) (fun _ =>                                          (* 52 *)
    vbind (look (fun v => s_get HS (heads v) h)) (fun head_version =>               (* 56 *)
    vbind (look (fun _ => make_changeset version head_version)) (fun cs =>          (* 60 *)
    add_edge_by move tag h cs))))                                                   (* 57 *)
  end)).

(** the object after each commit that an [add] makes *)
Definition commits (v : vstate HS DS TR) (a : K * list Z * option K) : list (vstate HS DS TR) :=
  let '(tag, version, head) := a in fst (add_by on_commits tag version head v).
End Commits.
