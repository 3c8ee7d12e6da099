(** C123: [revision_dot_dump] of dot_dump.py. *)
From Coq Require Import Sorted Lia.
From Verif Require Import Base Revision SpecRevision RevisionDump RevisionDumpProofs.
Local Open Scope Z_scope.

(** C123.  Full statement: after inserting any different tags the arrows written are the
    edges of the tree, from the upper node to the lower.  This is so when every tag is
    larger than those before it, as in the caller. *)
Theorem C123_arrows_partial : forall ts : list Z, StronglySorted Z.lt ts -> exists t es,
  r_insert_all ts r_empty = Ok t /\ r_edges t = Ok es /\ revision_dump t = Ok es.
Proof. exact dump_increasing. Qed.
(** In any case each edge is written once, and its arrow goes from the larger tag to the
    smaller *)
Theorem C123_edges : forall ts : list Z, NoDup ts -> exists t es w, r_insert_all ts r_empty = Ok t /\ r_edges t = Ok es /\ revision_dump t = Ok w /\
  length w = pred (length ts) /\ NoDup w /\ (forall x y, In (x, y) w <-> y < x /\ (In (x, y) es \/ In (y, x) es)).
Proof. exact dump_any. Qed.
(** With 2 before 1 the root is 1 and its arrow points to it *)
Theorem C123_arrows_refuted : exists (ts : list Z) t es w, NoDup ts /\ r_insert_all ts r_empty = Ok t /\ r_edges t = Ok es /\ revision_dump t = Ok w /\
  es = [(1, 2)] /\ w = [(2, 1)].
Proof.
  exists [2; 1]. do 3 eexists. split; [repeat constructor; cbn; lia|].
  split; [vm_compute; reflexivity|]. split; [vm_compute; reflexivity|]. split; [vm_compute; reflexivity|]. now split.
Qed.
Print Assumptions C123_arrows_partial.
Print Assumptions C123_edges.
Print Assumptions C123_arrows_refuted.

Example C123_example : StronglySorted Z.lt [0; 1; 2; 3; 4] /\
  (let* t := r_insert_all [0; 1; 2; 3; 4] r_empty in revision_dump t) = Ok [(4, 3); (3, 1); (4, 2); (2, 0)].
Proof. split; [repeat constructor; lia|vm_compute; reflexivity]. Qed.
Example C123_example_any : NoDup [3; 1; 2; 0] /\ exists t es, r_insert_all [3; 1; 2; 0] r_empty = Ok t /\ r_edges t = Ok es /\
  es = [(0, 2); (2, 3); (0, 1)] /\ revision_dump t = Ok [(2, 0); (3, 2); (1, 0)].
Proof. split; [repeat constructor; cbn; lia|]. do 2 eexists. split; [vm_compute; reflexivity|]. split; [vm_compute; reflexivity|]. now split. Qed.
