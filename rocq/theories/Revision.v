(** Model of src/deprecated/revision_tree.py: [Tree] and [Node].

    Simplification: the tags inserted are different from each other (the docstring of
    [insert], lines 57-58, asks for unique tags), so a node is named by its tag, also
    while it is not yet in the index, and [best_split != old_root] (line 84, comparing
    the fields of two dataclass objects, the tags first) compares tags.  A node object
    has no truth value of its own, so [if node] and [while current] ask for [None]. *)
From Verif Require Import Base.
Local Open Scope nat_scope.

Section Revision.
Context {K : Type} {E : Teq K}.

(** 141-150, the fields of [Node] but for its tag *)
Record rnode := mkR { r_id : nat; r_left : option K; r_right : option K; r_parent : option K; r_height : nat; r_size : nat }.
Notation rnodes := (dict K rnode).
(** 43-44 *)
Record rtree := mkT { r_root : option K; r_index : rnodes }.
Definition r_empty : rtree := mkT None [].

(** an attribute that is a node object: the node must be there *)
Definition node_at (s : rnodes) (t : K) : res rnode := match dget s t with Some n => Ok n | None => Err KeyError end.

(** 160-169: what a node adds to the size and height of the node above it.  Both
    children are added up, for the height as well. *)
Definition r_states (s : rnodes) (c : option K) : res (nat * nat) :=
  match c with None => Ok (0, 0) | Some c => let* n := node_at s c in Ok (r_height n, r_size n) end.
Definition set_states (n : rnode) (h z : nat) : rnode := mkR (r_id n) (r_left n) (r_right n) (r_parent n) h z.
(** 152-171, [update_states]; the loop runs at most once for every node above *)
Fixpoint r_update (fuel : nat) (cur : option K) (s : rnodes) : res rnodes :=
  match cur with
  | None => Ok s
  | Some t =>
    match fuel with
    | 0 => Err OutOfFuel
    | S fuel =>
      let* n := node_at s t in
      let* l := r_states s (r_left n) in
      let* r := r_states s (r_right n) in
      r_update fuel (r_parent n) (dset s t (set_states n (1 + fst l + fst r) (1 + snd l + snd r)))
    end
  end.
Definition set_rparent (n : rnode) (p : option K) : rnode := mkR (r_id n) (r_left n) (r_right n) p (r_height n) (r_size n).
Definition put_left (n : rnode) (c : option K) : rnode := mkR (r_id n) c (r_right n) (r_parent n) (r_height n) (r_size n).
Definition put_right (n : rnode) (c : option K) : rnode := mkR (r_id n) (r_left n) c (r_parent n) (r_height n) (r_size n).
(** 179-189, [set_left] and [set_right] *)
Definition r_set (put : rnode -> option K -> rnode) (t : K) (c : option K) (s : rnodes) : res rnodes :=
  let* n := node_at s t in
  let s := dset s t (put n c) in
  let* s := match c with
            | None => Ok s
            | Some c => let* m := node_at s c in Ok (dset s c (set_rparent m (Some t)))
            end in
  r_update (S (length s)) (Some t) s.

(** 7-10 *)
Inductive direction := NONE | LEFT | RIGHT.
(** 200-228, [find_and_detach_best_split]; the depth reaches the height of the tree *)
Fixpoint r_find (fuel depth : nat) (dir : direction) (cur : K) (s : rnodes) : res (K * direction) :=
  let* n := node_at s cur in
  if depth <? r_height n then
    match fuel with
    | 0 => Err OutOfFuel
    | S fuel =>
      match r_left n, r_right n with
      | Some l, Some r =>
        let* nl := node_at s l in
        let* nr := node_at s r in
        if r_height nl <? r_height nr then r_find fuel (1 + depth) RIGHT r s else r_find fuel (1 + depth) LEFT l s
      | None, Some r => r_find fuel (1 + depth) RIGHT r s
      | Some l, None => r_find fuel (1 + depth) LEFT l s
      | None, None => Err RuntimeError
      end
    end
  else Ok (cur, dir).

(** 73-101, [insert]: the tree afterwards, the inserted and the removed edges *)
Definition r_insert (tag : K) (t : rtree) : res (rtree * (list (K * K) * list (K * K))) :=
  let s := dset (r_index t) tag (mkR (length (r_index t)) None None None 1 1) in
  match r_root t with
  | None =>
    let* s := r_set put_left tag None s in
    Ok (mkT (Some tag) s, ([], []))
  | Some x =>
    let* n := node_at s x in
    let* found := r_find (r_height n) 1 NONE x s in
    let b := fst found in
    if teq b x then
      let* s := r_set put_left tag (Some x) s in
      Ok (mkT (Some tag) s, ([(tag, x)], []))
    else
      let* m := node_at s b in
      let* s := match r_parent m with
                | None => Ok s
                | Some p => match snd found with LEFT => r_set put_left p None s | _ => r_set put_right p None s end
                end in
      let* s := r_set put_right tag (Some b) s in
      let* s := r_set put_left tag (Some x) s in
      Ok (mkT (Some tag) s,
          ([(tag, x); (tag, b)], match r_parent m with None => [] | Some p => [(p, b)] end))
  end.

(** 191-197, [Node.edges]; the recursion goes down the tree *)
Fixpoint r_edges_at (fuel : nat) (t : K) (s : rnodes) : res (list (K * K)) :=
  match fuel with
  | 0 => Err OutOfFuel
  | S fuel =>
    let* n := node_at s t in
    let* l := match r_left n with None => Ok [] | Some c => let* e := r_edges_at fuel c s in Ok ((t, c) :: e) end in
    let* r := match r_right n with None => Ok [] | Some c => let* e := r_edges_at fuel c s in Ok ((t, c) :: e) end in
    Ok (l ++ r)
  end.
(** 103-105 *)
Definition r_edges (t : rtree) : res (list (K * K)) :=
  match r_root t with None => Ok [] | Some x => r_edges_at (length (r_index t)) x (r_index t) end.

(** 107-113, [path_to] *)
Fixpoint r_up (fuel : nat) (cur : option K) (s : rnodes) : res (list K) :=
  match cur with
  | None => Ok []
  | Some t =>
    match fuel with
    | 0 => Err OutOfFuel
    | S fuel => let* n := node_at s t in let* l := r_up fuel (r_parent n) s in Ok (t :: l)
    end
  end.
Definition r_path_to (t : rtree) (tag : K) : res (list K) :=
  match dget (r_index t) tag with
  | None => Err KeyError
  | Some _ => let* l := r_up (length (r_index t)) (Some tag) (r_index t) in Ok (rev l)
  end.

(** 120-122, [update_states] of a node and of every node above it *)
Fixpoint r_ripple (fuel : nat) (cur : option K) (s : rnodes) : res rnodes :=
  match cur with
  | None => Ok s
  | Some t =>
    match fuel with
    | 0 => Err OutOfFuel
    | S fuel =>
      let* s := r_update (length s) (Some t) s in
      let* n := node_at s t in
      r_ripple fuel (r_parent n) s
    end
  end.
(** 115-122, [reevaluate]; links are not changed by it, so the node seen by the loop
    is the one in the index *)
Fixpoint r_reevaluate_loop (ts : list K) (s : rnodes) : res rnodes :=
  match ts with
  | [] => Ok s
  | t :: ts =>
    let* n := node_at s t in
    let* s := match r_left n, r_right n with None, None => r_ripple (length s) (Some t) s | _, _ => Ok s end in
    r_reevaluate_loop ts s
  end.
Definition r_reevaluate (t : rtree) : res rtree :=
  let* s := r_reevaluate_loop (dkeys (r_index t)) (r_index t) in Ok (mkT (r_root t) s).
(** 124-128 and 173-177, [_invalidate] *)
Definition r_invalidate (t : rtree) : rtree :=
  mkT (r_root t) (map (fun x => (fst x, set_states (snd x) 0 0)) (r_index t)).
(** 130-138, [_get_state] *)
Definition r_get_state (t : rtree) (tag : K) : option (nat * nat) :=
  match dget (r_index t) tag with Some n => Some (r_size n, r_height n) | None => None end.

End Revision.
Arguments rnode : clear implicits.
Arguments rtree : clear implicits.

(** a tree into which the tags were inserted one after the other *)
Section Insertions.
Context {K : Type} {E : Teq K}.
Fixpoint r_insert_all (ts : list K) (t : rtree K) : res (rtree K) :=
  match ts with [] => Ok t | a :: ts => let* r := r_insert a t in r_insert_all ts (fst r) end.
End Insertions.
