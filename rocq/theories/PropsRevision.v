(** C89, C90, C91, C92: the tree of src/deprecated/revision_tree.py. *)
From Coq Require Import Permutation Lia.
From Verif Require Import Base Revision RevisionCost SpecRevision RevisionTree RevisionState RevisionSound RevisionHeight RevisionCostProofs.
Local Open Scope nat_scope.

Section Theorems.
Context {K : Type} {E : Teq K} {O : TeqOk K}.
Implicit Type ts : list K.

(** C89: after inserting different tags the edges make a tree rooted at the last tag,
    and [path_to] gives the one way to each of them *)
Theorem C89_tree : forall ts d, NoDup ts -> ts <> [] -> exists t es, r_insert_all ts r_empty = Ok t /\ r_edges t = Ok es /\
  NoDup es /\ S (length es) = length ts /\ Permutation (map snd es) (removelast ts) /\ (forall u v, In (u, v) es -> In u ts /\ In v ts) /\
  (forall v, In v ts -> exists p, r_path_to t v = Ok p /\ route es (last ts d) p v /\ (forall p', route es (last ts d) p' v -> p' = p)) /\
  (forall v, ~ In v ts -> r_path_to t v = Err KeyError).
Proof. exact tree_of. Qed.
(** the longest way has [d] tags, [d] the largest number with (d + 1)^2 <= 4 n + 1 *)
Theorem C89_longest : forall ts, NoDup ts -> exists t, r_insert_all ts r_empty = Ok t /\ exists d,
  (d + 1) * (d + 1) <= 4 * length ts + 1 /\ 4 * length ts + 1 < (d + 2) * (d + 2) /\
  (forall v p, r_path_to t v = Ok p -> length p <= d) /\ (ts <> [] -> exists v p, r_path_to t v = Ok p /\ length p = d).
Proof. exact longest. Qed.
(** an insertion tells exactly which edges it changed: at most two new ones, both from
    the new tag and one of them to the tag inserted before, and at most one gone *)
Theorem C89_insert : forall ts a, NoDup (ts ++ [a]) -> exists t t' es es' ins rem, r_insert_all ts r_empty = Ok t /\ r_edges t = Ok es /\
  r_insert a t = Ok (t', (ins, rem)) /\ r_edges t' = Ok es' /\
  (forall e, In e es' <-> (In e es /\ ~ In e rem) \/ In e ins) /\ incl rem es /\ (forall e, In e ins -> fst e = a) /\
  length ins <= 2 /\ length rem <= 1 /\ (forall b ts', ts = ts' ++ [b] -> In (a, b) ins).
Proof. exact one_more. Qed.

(** C90: the size recorded for a tag is the number of tags whose way goes through it *)
Theorem C90_size : forall ts, NoDup ts -> exists t, r_insert_all ts r_empty = Ok t /\
  (forall v, In v ts -> exists z, r_get_state t v = Some (z, z) /\ z = length (filter (through t v) ts)) /\
  (forall v, ~ In v ts -> r_get_state t v = None).
Proof. exact states_of. Qed.
(** [reevaluate] brings the sizes and heights back, whatever was there instead *)
Theorem C90_reevaluate : forall ts f, NoDup ts -> exists t, r_insert_all ts r_empty = Ok t /\ r_reevaluate (with_states f t) = Ok t.
Proof. exact restored. Qed.
Theorem C90_invalidate : forall ts, NoDup ts -> exists t, r_insert_all ts r_empty = Ok t /\ r_reevaluate (r_invalidate t) = Ok t.
Proof. exact invalidated. Qed.

(** C91, in full: the height recorded for a tag is the number of tags on the longest
    way down from it.  Missing: that some way is as long as the recorded height. *)
Theorem C91_height_partial : forall ts, NoDup ts -> exists t es, r_insert_all ts r_empty = Ok t /\ r_edges t = Ok es /\
  forall v, In v ts -> exists z h, r_get_state t v = Some (z, h) /\ forall p w, route es v p w -> length p <= h.
Proof. exact heights. Qed.
(** It is as long exactly if nowhere below the tag two edges go out of the same tag. *)
Theorem C91_exactly_partial : forall ts, NoDup ts -> exists t es, r_insert_all ts r_empty = Ok t /\ r_edges t = Ok es /\
  forall v, In v ts -> exists z h, r_get_state t v = Some (z, h) /\
    ((exists p w, route es v p w /\ length p = h) <-> forall u p c c', route es v p u -> In (u, c) es -> In (u, c') es -> c = c').
Proof. exact heights_exactly. Qed.

(** C92, in full: an insertion and [path_to] take O(sqrt n) steps, n insertions take
    O(n sqrt n) and [reevaluate] O(n).  Missing: the last, for which k^3 steps are
    needed for k^2 tags. *)
Theorem C92_insert_partial : forall ts a, NoDup (ts ++ [a]) -> exists t k r, r_insert_all ts r_empty = Ok t /\
  c_insert a t = Ok (k, r) /\ r_insert a t = Ok r /\ k * k <= 16 * length ts + 4.
Proof. exact insert_cost. Qed.
(** exactly: one, or twice the number of tags on the way to the one split off *)
Theorem C92_insert_exactly_partial : forall ts a, NoDup (ts ++ [a]) -> exists t k t' ins rem, r_insert_all ts r_empty = Ok t /\
  c_insert a t = Ok (k, (t', (ins, rem))) /\
  (rem = [] /\ k = 1 \/ exists q b p, rem = [(q, b)] /\ r_path_to t b = Ok p /\ k = 2 * length p).
Proof. exact insert_cost_exactly. Qed.
Theorem C92_construction_partial : forall ts, NoDup ts -> exists t c, r_insert_all ts r_empty = Ok t /\
  c_insert_all ts r_empty = Ok (c, t) /\ c * c <= length ts * length ts * (16 * length ts + 4).
Proof. exact construction_cost. Qed.
Theorem C92_reevaluate_partial : forall ts f, NoDup ts -> exists t c k, r_insert_all ts r_empty = Ok t /\
  c_reevaluate (with_states f t) = Ok (c, t) /\ k * k <= length ts /\ length ts < (k + 1) * (k + 1) /\
  k * k * (k + 1) <= 2 * c /\ 2 * c <= (2 * k + 1) * (2 * k + 1) * (2 * k + 2).
Proof. exact reevaluate_cost. Qed.
(** the counting copies do what the functions do *)
Theorem C92_counted : (forall a (t : rtree K), (let* x := c_insert a t in Ok (snd x)) = r_insert a t) /\
  (forall t : rtree K, (let* x := c_reevaluate t in Ok (snd x)) = r_reevaluate t).
Proof. exact (conj drop_insert drop_reevaluate). Qed.
(** there is no linear bound for [reevaluate] *)
Theorem C92_linear_refuted : forall tag : nat -> K, (forall i j, tag i = tag j -> i = j) -> forall w, exists ts t c,
  NoDup ts /\ r_insert_all ts r_empty = Ok t /\ c_reevaluate (r_invalidate t) = Ok (c, t) /\ w * length ts < c.
Proof. exact reevaluate_not_linear. Qed.
End Theorems.

(** three tags: two edges from the last, which records the height three *)
Theorem C91_height_refuted : exists (ts : list nat) t es z, NoDup ts /\ r_insert_all ts r_empty = Ok t /\ r_edges t = Ok es /\
  r_get_state t 2 = Some (z, 3) /\ forall p w, route es 2 p w -> length p <= 2.
Proof.
  exists [0; 1; 2]. destruct (r_insert_all [0; 1; 2] r_empty) as [t|] eqn:I; [|vm_compute in I; discriminate]. exists t, [(2, 1); (2, 0)], 3.
  vm_compute in I. injection I as <-. split; [repeat constructor; cbn; lia|]. split; [reflexivity|split; [reflexivity|split; [reflexivity|]]].
  intros p w R. inversion R as [|? y q ? I1 R1]; subst; [cbn; lia|]. inversion R1 as [|? y2 ? ? I2 R2]; subst; [cbn; lia|]. exfalso.
  cbn in I1, I2. destruct I1 as [Q|[Q|[]]]; injection Q as <-; destruct I2 as [Q|[Q|[]]]; discriminate.
Qed.

(** * Examples *)
Definition ten : list nat := seq 0 10.
Example C89_example : NoDup (ten ++ [10]) /\ exists t t' es, r_insert_all ten r_empty = Ok t /\ r_edges t = Ok es /\
  es = [(9, 8); (8, 7); (7, 3); (3, 1); (8, 5); (5, 4); (9, 6); (6, 2); (2, 0)] /\
  r_path_to t 0 = Ok [9; 6; 2; 0] /\ r_path_to t 1 = Ok [9; 8; 7; 3; 1] /\ r_path_to t 10 = Err KeyError /\
  (5 + 1) * (5 + 1) <= 4 * length ten + 1 < (5 + 2) * (5 + 2) /\
  r_insert 10 t = Ok (t', ([(10, 9); (10, 7)], [(8, 7)])).
Proof.
  split; [apply (seq_NoDup 11)|]. eexists _, _, _. split; [vm_compute; reflexivity|]. split; [vm_compute; reflexivity|].
  split; [reflexivity|]. split; [reflexivity|]. split; [reflexivity|]. split; [reflexivity|]. split; [cbn; lia|]. vm_compute. reflexivity.
Qed.
Example C90_example : exists t, r_insert_all ten r_empty = Ok t /\ r_get_state t 8 = Some (6, 6) /\ filter (through t 8) ten = [1; 3; 4; 5; 7; 8] /\
  r_get_state (r_invalidate t) 8 = Some (0, 0) /\ r_reevaluate (r_invalidate t) = Ok t.
Proof. eexists. split; [vm_compute; reflexivity|]. repeat split; vm_compute; reflexivity. Qed.
(** three being the root of nine, the largest square below ten *)
Example C92_example : exists t t' r, r_insert_all ten r_empty = Ok t /\ c_insert 10 t = Ok (6, (t', r)) /\ 6 * 6 <= 16 * length ten + 4 /\
  c_reevaluate (r_invalidate t) = Ok (35, t) /\ 3 * 3 * (3 + 1) <= 2 * 35.
Proof. eexists _, _, _. split; [vm_compute; reflexivity|]. split; [vm_compute; reflexivity|]. split; [cbn; lia|]. split; [vm_compute; reflexivity|cbn; lia]. Qed.

Print Assumptions C89_tree.
Print Assumptions C89_longest.
Print Assumptions C89_insert.
Print Assumptions C90_size.
Print Assumptions C90_reevaluate.
Print Assumptions C90_invalidate.
Print Assumptions C91_height_partial.
Print Assumptions C91_exactly_partial.
Print Assumptions C91_height_refuted.
Print Assumptions C92_insert_partial.
Print Assumptions C92_insert_exactly_partial.
Print Assumptions C92_construction_partial.
Print Assumptions C92_reevaluate_partial.
Print Assumptions C92_counted.
Print Assumptions C92_linear_refuted.
