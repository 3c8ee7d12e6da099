(** Copies of the functions of /repo/src/gaspra/memory_tree.py and db_tree.py that go along
    the tree, counting the nodes they visit, and a tree that adds up what is counted when
    parents are changed.  A round of a loop counts one, whatever the number of children of
    the node (never more than two: a DBTree has no place for a third, and by C40 a
    MemoryTree has the same ones). *)
From Verif Require Import Base Tree Versions DbTree.

Section TreeCost.
Context {K : Type} {E : Teq K}.

(** memory_tree.py:98-115, [_update_metrics] *)
Fixpoint update_metrics_n (fuel : nat) (tag : option K) (s : nodes K) : nat * (nodes K * res unit) :=
  match tag with
  | None => (0, (s, Ok tt))
  | Some t =>
    match fuel with
    | 0 => (0, (s, Err OutOfFuel))
    | S fuel =>
      match dget s t with
      | None => (1, (s, Err KeyError))
      | Some n =>
        match child_metrics s (children n) with
        | Err e => (1, (s, Err e))
        | Ok (h, z) =>
          let '(k, r) := update_metrics_n fuel (parent n) (dset s t (set_metrics n (h + 1) (z + 1))) in (S k, r)
        end
      end
    end
  end.

(** memory_tree.py:47-68, [change_parent] *)
Definition m_change_parent_n (tag : K) (new_parent : option K) (s : nodes K) : nat * (nodes K * res unit) :=
  let fuel := S (length s) in
  match dget s tag with
  | None => (0, (s, Err KeyError))
  | Some original =>
    match (match parent original with
           | None => Ok s
           | Some q => match dget s q with
                       | None => Err KeyError
                       | Some nq => Ok (if mem_tag tag (children nq)
                                        then dset s q (set_children nq (remove1 tag (children nq)))
                                        else s)
                       end
           end) with
    | Err e => (0, (s, Err e))
    | Ok s1 =>
      let own := match dget s1 tag with Some n => children n | None => children original end in
      let s2 := dset s1 tag (set_children (set_parent original new_parent) own) in
      let '(k, (s3, r3)) :=
        match new_parent with
        | None => (0, (s2, Ok tt))
        | Some r => match dget s2 r with
                    | None => (0, (s2, Err KeyError))
                    | Some nr => update_metrics_n fuel (Some r)
                                   (dset s2 r (set_children nr (children nr ++ [tag])))
                    end
        end in
      match r3 with
      | Err e => (k, (s3, Err e))
      | Ok _ => let '(k', r) := update_metrics_n fuel (parent original) s3 in (k + k', r)
      end
    end
  end.

(** memory_tree.py:70-96, [get_split] *)
Fixpoint split_loop_n (fuel depth : nat) (s : nodes K) (tag : K) (n : node K) (path : list K) : nat * res (K * list K) :=
  if depth <? height n then
    match fuel with
    | 0 => (0, Err OutOfFuel)
    | S fuel =>
      match best_loop s 0 None (children n) with
      | Err e => (1, Err e)
      | Ok b =>
        match nth_error (children n) (snd b) with
        | None => (1, Err IndexError)
        | Some t =>
          match dget s t with
          | None => (1, Err KeyError)
          | Some n' => let '(k, r) := split_loop_n fuel (S depth) s t n' (path ++ [t]) in (S k, r)
          end
        end
      end
    end
  else (0, Ok (tag, path)).
Definition m_get_split_n (s : nodes K) (tag : K) : nat * res (K * list K) :=
  match dget s tag with
  | None => (0, Err KeyError)
  | Some n => split_loop_n (max_height s) 1 s tag n [tag]
  end.

(** memory_tree.py:31-45, [path_to] *)
Fixpoint path_loop_n (fuel : nat) (s : nodes K) (tag : option K) (path : list K) : nat * res (option (list K)) :=
  match tag with
  | None => (0, Ok (Some (rev path)))
  | Some t =>
    match fuel with
    | 0 => (0, Err OutOfFuel)
    | S fuel =>
      match dget s t with
      | Some n => let '(k, r) := path_loop_n fuel s (parent n) (path ++ [t]) in (S k, r)
      | None => (1, Ok None)
      end
    end
  end.
Definition m_path_to_n (s : nodes K) (tag : K) : nat * res (option (list K)) :=
  path_loop_n (S (length s)) s (Some tag) [].

(** db_tree.py:127-137, _new_update_metrics *)
Fixpoint d_update_loop_n (fuel : nat) (rid : option nat) (t : table K) : nat * res (table K) :=
  match rid with
  | None => (0, Ok t)
  | Some i =>
    match nth_error t i with
    | None => (1, Err TypeError)
    | Some r =>
      match fuel with
      | 0 => (0, Err OutOfFuel)
      | S fuel =>
        let '(h, z) := node_metrics t r in
        let '(k, o) := d_update_loop_n fuel (r_parent_rid r) (lupd t i (set_row_metrics h z)) in (S k, o)
      end
    end
  end.
Definition d_update_metrics_n (rid : option nat) (t : table K) : nat * (table K * res unit) :=
  match d_update_loop_n (length t) rid t with
  | (k, Ok t') => (k, (t', Ok tt))
  | (k, Err e) => (k, (t, Err e))
  end.

(** db_tree.py:70-111, change_parent *)
Definition d_change_parent_n (tag new_parent : K) (t : table K) : nat * (table K * res unit) :=
  match row_of t tag with
  | None => (0, (t, Err TypeError))
  | Some (tag_rid, r) =>
    let original_parent_rid := r_parent_rid r in
    let t1 := update_at original_parent_rid (remove_if_child0 tag_rid) t in
    let t2 := update_at original_parent_rid (remove_if_child1 tag_rid) t1 in
    match rid_of t2 new_parent with
    | None => (0, (t, Err TypeError))
    | Some new_parent_rid =>
      let t3 := lupd t2 tag_rid (set_parents (Some new_parent) (Some new_parent_rid)) in
      let t4 := lupd t3 new_parent_rid
                  (match r_parent r with
                   | None => set_child0 (Some tag_rid)
                   | Some _ => set_child1 (Some tag_rid)
                   end) in
      match d_update_metrics_n original_parent_rid t4 with
      | (k, (t5, Err e)) => (k, (t5, Err e))
      | (k, (t5, Ok _)) => let '(k', o) := d_update_metrics_n (Some new_parent_rid) t5 in (k + k', o)
      end
    end
  end.

(** db_tree.py:113-125, get_split *)
Fixpoint d_split_loop_n (fuel depth : nat) (t : table K) (tag : K) (r : row K) (path : list K) : nat * res (K * list K) :=
  if depth <? r_height r then
    match fuel with
    | 0 => (0, Err OutOfFuel)
    | S fuel =>
      match best_path t r with
      | None => (1, Err TypeError)
      | Some (_, c) => let '(k, o) := d_split_loop_n fuel (S depth) t (r_tag c) c (path ++ [r_tag c]) in (S k, o)
      end
    end
  else (0, Ok (tag, path)).
Definition d_get_split_n (t : table K) (tag : K) : nat * res (K * list K) :=
  match row_of t tag with
  | None => (0, Err TypeError)
  | Some (_, r) => d_split_loop_n (fold_right Nat.max 0 (map r_height t)) 1 t tag r [tag]
  end.
End TreeCost.

(** A tree with a counter: to change a parent adds what the call counts. *)
Definition counted {K : Type} (TR : tree_impl K) (change : K -> K -> tree_t TR -> nat * (tree_t TR * res unit)) : tree_impl K :=
  mkTree K (nat * tree_t TR) (0, tr_empty TR)
    (fun t => tr_contains TR (snd t)) (fun t => tr_base TR (snd t))
    (fun tag b t => let '(t', r) := tr_add TR tag b (snd t) in ((fst t, t'), r))
    (fun t => tr_path_to TR (snd t))
    (fun tag p t => let '(n, (t', r)) := change tag p (snd t) in ((fst t + n, t'), r))
    (fun t => tr_get_split TR (snd t)).
Definition counted_memory (K : Type) {E : Teq K} : tree_impl K :=
  counted (memory_tree K) (fun tag p => m_change_parent_n tag (Some p)).
Definition counted_db (K : Type) {E : Teq K} : tree_impl K := counted (db_tree K) d_change_parent_n.
