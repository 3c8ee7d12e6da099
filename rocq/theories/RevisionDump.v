(** Model of /repo/src/gaspra/dot_dump.py:36-43, [revision_dot_dump], on the tree of
    src/deprecated/revision_tree.py (the module dot_dump imports gaspra.revision_tree,
    which is not part of the package; the functions are modelled as written).

    The tags are integers, as in the caller (lines 52-57).  A written line is modelled by
    the two tags on it; the lines around the edges (38-39, 43) are always the same and
    are left out. *)
From Verif Require Import Base Revision.
Local Open Scope Z_scope.

(** 41: [sorted] of a pair; equal ones keep their places *)
Definition sorted_pair (e : Z * Z) : Z * Z := if snd e <? fst e then (snd e, fst e) else e.
(** 40-42: the arrow [v2 -> v1] of every edge *)
Definition revision_dump (t : rtree Z) : res (list (Z * Z)) :=
  let* es := r_edges t in Ok (map (fun e => (snd (sorted_pair e), fst (sorted_pair e))) es).
