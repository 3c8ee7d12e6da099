(** Specification vocabulary for the database-backed classes: sequences of calls and
    what they return. *)
From Coq Require Import Permutation.
From Verif Require Import Base Tree SpecTree Versions DbTree.

(** * Calls of the Tree protocol that change the tree *)
Section Protocol.
Context {K : Type} {E : Teq K}.
Inductive tree_call :=
| CallAdd (tag : K) (existing_head : option K)
| CallMove (tag new_parent : K).
Definition tree_step (TR : tree_impl K) (t : tree_t TR) (c : tree_call) : tree_t TR :=
  match c with
  | CallAdd tag base => fst (tr_add TR tag base t)
  | CallMove tag q => fst (tr_change_parent TR tag q t)
  end.
Definition tree_run (TR : tree_impl K) (l : list tree_call) : tree_t TR :=
  fold_left (tree_step TR) l (tr_empty TR).

(** A call that makes sense: it adds a new tag, or moves a node to another one that
    is not below it. *)
Definition sensible (s : nodes K) (c : tree_call) : Prop :=
  match c with
  | CallAdd tag _ => dget s tag = None
  | CallMove tag q => dget s tag <> None /\ exists lq, up s q lq /\ ~ In tag lq
  end.
(** A call for which the two slots of a row are enough: a node without a parent
    moves to the node of which it is the base; a node with a parent moves to a node
    that has no other children and of which it is not the base. *)
Definition slots_do (s : nodes K) (c : tree_call) : Prop :=
  match c with
  | CallAdd _ _ => True
  | CallMove tag q => forall n nq, dget s tag = Some n -> dget s q = Some nq ->
      match parent n with
      | None => base nq = Some tag
      | Some _ => base nq <> Some tag /\ forall c, child_of s c q -> c = tag
      end
  end.
(** what holds before each call, in terms of the MemoryTree *)
Definition always (P : nodes K -> tree_call -> Prop) (l : list tree_call) : Prop :=
  forall pre c post, l = pre ++ c :: post -> P (tree_run (memory_tree K) pre) c.
End Protocol.
Arguments tree_call : clear implicits.

(** * Calls of a mapping *)
Section Mapping.
Context {K V : Type} {E : Teq K}.
Inductive map_call :=
| CallSet (k : K) (v : V)
| CallGet (k : K)
| CallDel (k : K)
| CallIn (k : K)
| CallLen
| CallIter.
(** what a call returns *)
Inductive answer :=
| ANothing
| AValue (v : V)
| ABool (b : bool)
| ANat (n : nat)
| AKeys (l : list K).

Definition dict_call (d : dict K V) (c : map_call) : dict K V * res answer :=
  match c with
  | CallSet k v => (dset d k v, Ok ANothing)
  | CallGet k => (d, match dget d k with Some v => Ok (AValue v) | None => Err KeyError end)
  | CallDel k => if dmem d k then (ddel d k, Ok ANothing) else (d, Err KeyError)
  | CallIn k => (d, Ok (ABool (dmem d k)))
  | CallLen => (d, Ok (ANat (length d)))
  | CallIter => (d, Ok (AKeys (dkeys d)))
  end.
Definition coll_call (place : nat) (t : rows) (c : map_call) : rows * res answer :=
  match c with
  | CallSet k v => (c_setitem place k v t, Ok ANothing)
  | CallGet k => (t, let* v := c_getitem t k in Ok (AValue v))
  | CallDel k => let '(t', r) := c_delitem k t in (t', let* _ := r in Ok ANothing)
  | CallIn k => (t, Ok (ABool (c_contains t k)))
  | CallLen => (t, Ok (ANat (c_len t)))
  | CallIter => (t, Ok (AKeys (c_iter t)))
  end.
Fixpoint dict_calls (d : dict K V) (l : list map_call) : list (res answer) :=
  match l with
  | [] => []
  | c :: l => let '(d', r) := dict_call d c in r :: dict_calls d' l
  end.
(** [places] are the positions sqlite chooses *)
Fixpoint coll_calls (places : nat -> nat) (t : rows) (l : list map_call) : list (res answer) :=
  match l with
  | [] => []
  | c :: l => let '(t', r) := coll_call (places 0) t c in r :: coll_calls (fun i => places (S i)) t' l
  end.
(** equal, but for the order of keys in an iteration *)
Definition same_answer (a b : res answer) : Prop :=
  match a, b with
  | Ok (AKeys l), Ok (AKeys l') => Permutation l l'
  | _, _ => a = b
  end.
End Mapping.
Arguments map_call : clear implicits.
Arguments answer : clear implicits.
