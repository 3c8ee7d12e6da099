(** Specification vocabulary for src/deprecated/revision_tree.py: ways along edges. *)
From Verif Require Import Base Revision.

Section Ways.
Context {K : Type}.
(** [route es x p v]: [p] lists the tags met on the way from [x] to [v] along [es],
    both included *)
Inductive route (es : list (K * K)) : K -> list K -> K -> Prop :=
| route_here x : route es x [x] x
| route_on x y p v : In (x, y) es -> route es y p v -> route es x (x :: p) v.
Context {E : Teq K}.
(** the way [path_to] gives to [w] goes through [v] *)
Definition through (t : rtree K) (v w : K) : bool :=
  match r_path_to t w with Ok p => existsb (fun u => teq u v) p | Err _ => false end.
(** the tree read from elsewhere, with other sizes and heights in it *)
Definition with_states (f : K -> nat * nat) (t : rtree K) : rtree K :=
  mkT (r_root t) (map (fun x => (fst x, set_states (snd x) (fst (f (fst x))) (snd (f (fst x))))) (r_index t)).
End Ways.
