(** When two branches run into each other, in terms of their edits of the parent. *)
From Verif Require Import Base Changesets SpecDiff SpecMerge.

Section SpecClash.
Context {T : Type}.

(** An edit is under way at a place: it begins there, or it removes the token there and
    the one before.  What is left of it from there on: its insertion, if it begins there,
    and the rest of its removal. *)
Definition under_way (s : nat) (e : edit T) : Prop := e_pos e = s \/ (e_pos e < s /\ s < e_end e).
Definition part (s : nat) (e : edit T) : edit T := (s, (if e_pos e =? s then e_ins e else []), e_end e - s).

(** both branches have an edit under way at a place and what is left of them collides *)
Definition clash (es0 es1 : list (edit T)) (s : nat) : Prop :=
  exists e0 e1, In e0 es0 /\ In e1 es1 /\ under_way s e0 /\ under_way s e1 /\
    ~ compatible_edits (part s e0) (part s e1).
(** no token from [s] to [x] is kept by both branches *)
Definition none_kept (es0 es1 : list (edit T)) (s x : nat) : Prop :=
  forall j, s <= j -> j < x -> removed es0 j = true \/ removed es1 j = true.
(** a branch inserts something at [x] without removing a token there, and the other
    inserts nothing there *)
Definition lone_insertion (es0 es1 : list (edit T)) (x : nat) : Prop :=
  exists e, In e es0 /\ e_pos e = x /\ e_len e = 0 /\ forall e', In e' es1 -> e_pos e' = x -> e_ins e' = [].

(** a clash and, before a token that both keep, an insertion of one branch alone *)
Definition clash_then_insertion (es0 es1 : list (edit T)) : Prop :=
  exists s x, clash es0 es1 s /\ s < x /\ none_kept es0 es1 s x /\
    (lone_insertion es0 es1 x \/ lone_insertion es1 es0 x).
End SpecClash.
