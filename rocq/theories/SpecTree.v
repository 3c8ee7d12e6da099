(** Specification vocabulary for the spanning trees of versions.  It looks at the
    recorded parents only; the heights, sizes and child lists of the nodes are
    what is specified. *)
From Verif Require Import Base Tree.

Section SpecTree.
Context {K : Type} {E : Teq K}.
Implicit Type s : nodes K.

(** [q] is the recorded parent of [t] *)
Definition child_of s (t q : K) : Prop :=
  exists n, dget s t = Some n /\ parent n = Some q.

(** [up s t l]: going from [t] to the root one meets [t] and then the rest of [l] *)
Inductive up s : K -> list K -> Prop :=
| up_root t n : dget s t = Some n -> parent n = None -> up s t [t]
| up_step t n q l : dget s t = Some n -> parent n = Some q -> up s q l -> up s t (t :: l).

(** [down s t l]: [l] starts at [t] and every further element is a child of the
    one before it *)
Inductive down s : K -> list K -> Prop :=
| down_one t : dget s t <> None -> down s t [t]
| down_step t c l : child_of s c t -> down s c l -> down s t (t :: l).

Definition below s (t d : K) : Prop := exists l, down s t l /\ last l t = d.

(** every node leads to a root, so there are no cycles and no dangling parents *)
Definition is_forest s : Prop := forall t, dget s t <> None -> exists l, up s t l.

(** the child list of a node has every node whose parent it is, once *)
Definition children_right s (t : K) (n : node K) : Prop :=
  NoDup (children n) /\ forall c, In c (children n) <-> child_of s c t.

(** [height] is the length of the longest way down, [size] the number of nodes below *)
Definition height_right s (t : K) (n : node K) : Prop :=
  (exists l, down s t l /\ length l = height n) /\
  (forall l, down s t l -> length l <= height n).
Definition size_right s (t : K) (n : node K) : Prop :=
  exists l, NoDup l /\ (forall d, In d l <-> below s t d) /\ length l = size n.

Definition tree_exact s : Prop :=
  is_forest s /\
  forall t n, dget s t = Some n -> children_right s t n /\ height_right s t n /\ size_right s t n.
End SpecTree.
