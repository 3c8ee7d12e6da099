(** Copies of the functions of Revision.v that also count: every time around a loop of
    [update_states] (lines 157-171 of src/deprecated/revision_tree.py) or of
    [find_and_detach_best_split] (204-227) is one step.  The assignments of [insert] and
    the tests of [reevaluate] are not counted; RevisionCostProofs.v shows that the copies
    do the same as the functions. *)
From Verif Require Import Base Revision.
Local Open Scope nat_scope.

Section Cost.
Context {K : Type} {E : Teq K}.
Notation rnodes := (dict K (rnode K)).

(** 152-171 *)
Fixpoint c_update (fuel : nat) (cur : option K) (s : rnodes) : res (nat * rnodes) :=
  match cur with
  | None => Ok (0, s)
  | Some t =>
    match fuel with
    | 0 => Err OutOfFuel
    | S fuel =>
      let* n := node_at s t in
      let* l := r_states s (r_left n) in
      let* r := r_states s (r_right n) in
      let* x := c_update fuel (r_parent n) (dset s t (set_states n (1 + fst l + fst r) (1 + snd l + snd r))) in
      Ok (1 + fst x, snd x)
    end
  end.
(** 179-189 *)
Definition c_set (put : rnode K -> option K -> rnode K) (t : K) (c : option K) (s : rnodes) : res (nat * rnodes) :=
  let* n := node_at s t in
  let s := dset s t (put n c) in
  let* s := match c with
            | None => Ok s
            | Some c => let* m := node_at s c in Ok (dset s c (set_rparent m (Some t)))
            end in
  c_update (S (length s)) (Some t) s.
(** 200-228 *)
Fixpoint c_find (fuel depth : nat) (dir : direction) (cur : K) (s : rnodes) : res (nat * (K * direction)) :=
  let* n := node_at s cur in
  if depth <? r_height n then
    match fuel with
    | 0 => Err OutOfFuel
    | S fuel =>
      let* x := match r_left n, r_right n with
                | Some l, Some r =>
                  let* nl := node_at s l in
                  let* nr := node_at s r in
                  if r_height nl <? r_height nr then c_find fuel (1 + depth) RIGHT r s else c_find fuel (1 + depth) LEFT l s
                | None, Some r => c_find fuel (1 + depth) RIGHT r s
                | Some l, None => c_find fuel (1 + depth) LEFT l s
                | None, None => Err RuntimeError
                end in
      Ok (1 + fst x, snd x)
    end
  else Ok (0, (cur, dir)).
(** 73-101 *)
Definition c_insert (tag : K) (t : rtree K) : res (nat * (rtree K * (list (K * K) * list (K * K)))) :=
  let s := dset (r_index t) tag (mkR (length (r_index t)) None None None 1 1) in
  match r_root t with
  | None =>
    let* s := c_set put_left tag None s in
    Ok (fst s, (mkT (Some tag) (snd s), ([], [])))
  | Some x =>
    let* n := node_at s x in
    let* found := c_find (r_height n) 1 NONE x s in
    let b := fst (snd found) in
    if teq b x then
      let* s := c_set put_left tag (Some x) s in
      Ok (fst found + fst s, (mkT (Some tag) (snd s), ([(tag, x)], [])))
    else
      let* m := node_at s b in
      let* s1 := match r_parent m with
                 | None => Ok (0, s)
                 | Some p => match snd (snd found) with LEFT => c_set put_left p None s | _ => c_set put_right p None s end
                 end in
      let* s2 := c_set put_right tag (Some b) (snd s1) in
      let* s3 := c_set put_left tag (Some x) (snd s2) in
      Ok (fst found + fst s1 + fst s2 + fst s3,
          (mkT (Some tag) (snd s3),
           ([(tag, x); (tag, b)], match r_parent m with None => [] | Some p => [(p, b)] end)))
  end.
(** 120-122 *)
Fixpoint c_ripple (fuel : nat) (cur : option K) (s : rnodes) : res (nat * rnodes) :=
  match cur with
  | None => Ok (0, s)
  | Some t =>
    match fuel with
    | 0 => Err OutOfFuel
    | S fuel =>
      let* x := c_update (length s) (Some t) s in
      let* n := node_at (snd x) t in
      let* y := c_ripple fuel (r_parent n) (snd x) in
      Ok (fst x + fst y, snd y)
    end
  end.
(** 115-122 *)
Fixpoint c_reevaluate_loop (ts : list K) (s : rnodes) : res (nat * rnodes) :=
  match ts with
  | [] => Ok (0, s)
  | t :: ts =>
    let* n := node_at s t in
    let* x := match r_left n, r_right n with None, None => c_ripple (length s) (Some t) s | _, _ => Ok (0, s) end in
    let* y := c_reevaluate_loop ts (snd x) in
    Ok (fst x + fst y, snd y)
  end.
Definition c_reevaluate (t : rtree K) : res (nat * rtree K) :=
  let* x := c_reevaluate_loop (dkeys (r_index t)) (r_index t) in Ok (fst x, mkT (r_root t) (snd x)).
(** the insertions of Revision.v *)
Fixpoint c_insert_all (ts : list K) (t : rtree K) : res (nat * rtree K) :=
  match ts with
  | [] => Ok (0, t)
  | a :: ts => let* r := c_insert a t in let* q := c_insert_all ts (fst (snd r)) in Ok (fst r + fst q, snd q)
  end.
End Cost.
