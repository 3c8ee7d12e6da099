(** Specification vocabulary for three-way merges, in terms of the two public
    diffs of the branches against the parent. *)
From Verif Require Import Base Changesets SpecDiff.

Section SpecMerge.
Context {T : Type} {E : Teq T}.

(** One edit: where in the parent it starts, what it inserts there, and how many
    parent tokens from there it removes. *)
Definition edit := (nat * list T * nat)%type.
Definition e_pos (e : edit) : nat := fst (fst e).
Definition e_ins (e : edit) : list T := snd (fst e).
Definition e_len (e : edit) : nat := snd e.
Definition e_end (e : edit) : nat := e_pos e + e_len e.

(** the edits of a diff, with their positions in the original *)
Fixpoint edits (pos : nat) (d : list (ditem T)) : list edit :=
  match d with
  | [] => []
  | DText t :: d' => edits (pos + length t) d'
  | DChange a b :: d' => (pos, a, length b) :: edits (pos + length b) d'
  end.

(** Two edits do not collide: they are the same edit, or one ends before the
    other begins, or they start at the same place and one only inserts while the
    other only removes. *)
Definition compatible_edits (e0 e1 : edit) : Prop :=
  e0 = e1 \/
  (e_pos e0 < e_pos e1 /\ e_end e0 <= e_pos e1) \/
  (e_pos e1 < e_pos e0 /\ e_end e1 <= e_pos e0) \/
  (e_pos e0 = e_pos e1 /\ ((e_len e0 = 0 /\ e_ins e1 = []) \/ (e_len e1 = 0 /\ e_ins e0 = []))).
Definition compatible (es0 es1 : list edit) : Prop :=
  forall e0 e1, In e0 es0 -> In e1 es1 -> compatible_edits e0 e1.

(** what is inserted before parent token [i] (or at the end, [i = length p]),
    and whether parent token [i] is removed *)
Definition ins_at (es : list edit) (i : nat) : list T :=
  flat_map (fun e => if e_pos e =? i then e_ins e else []) es.
Definition removed (es : list edit) (i : nat) : bool :=
  existsb (fun e => (e_pos e <=? i) && (i <? e_end e)) es.

(** The positional union: at each place of the parent the insertions of both
    branches (one copy when they are equal), and the parent tokens no branch
    removes. *)
Definition both_ins (x y : list T) : list T := if list_teq x y then x else x ++ y.
Definition union_from (p : list T) (es0 es1 : list edit) (pos : nat) : list T :=
  flat_map (fun i => both_ins (ins_at es0 i) (ins_at es1 i) ++
                     (if removed es0 i || removed es1 i then [] else firstn 1 (skipn i p)))
           (seq pos (S (length p) - pos)).
Definition union_text (p : list T) (es0 es1 : list edit) : list T := union_from p es0 es1 0.

(** sides of the reported conflicts *)
Definition first_sides (r : list (ditem T)) : list T :=
  flat_map (fun i => match i with DText _ => [] | DChange a _ => a end) r.
Definition second_sides (r : list (ditem T)) : list T :=
  flat_map (fun i => match i with DText _ => [] | DChange _ b => b end) r.
Definition swap_sides (r : list (ditem T)) : list (ditem T) :=
  map (fun i => match i with DText t => DText t | DChange a b => DChange b a end) r.

Inductive subseq : list T -> list T -> Prop :=
| sub_nil : forall l, subseq [] l
| sub_take : forall x a l, subseq a l -> subseq (x :: a) (x :: l)
| sub_skip : forall x a l, subseq a l -> subseq a (x :: l).

(** No edit of the second list reaches over the beginning of an edit of the
    first. *)
Definition reach_free (es0 es1 : list edit) : Prop :=
  forall e0 e1, In e0 es0 -> In e1 es1 -> e_pos e1 < e_pos e0 -> e_pos e0 < e_end e1 -> False.
(** No removal in the first list covers a pure insertion of the second list and,
    after it, another edit of the second list. *)
Definition cover_free (es0 es1 : list edit) : Prop :=
  forall e0 e1 e1', In e0 es0 -> In e1 es1 -> In e1' es1 -> e_len e1 = 0 ->
    e_pos e0 <= e_pos e1 -> e_pos e1 < e_pos e1' -> e_pos e1' < e_end e0 -> False.

(** tokens inserted by a diff, tokens of a merge result *)
Definition inserted (d : list (ditem T)) : list T :=
  flat_map (fun i => match i with DText _ => [] | DChange a _ => a end) d.
Definition tokens (r : list (ditem T)) : list T :=
  flat_map (fun i => match i with DText t => t | DChange a b => a ++ b end) r.

(** A merge result: a single empty run, or a non-empty diff in normal form. *)
Definition normal_merge (r : list (ditem T)) : Prop :=
  r = [DText []] \/ (r <> [] /\ normal_diff r).
End SpecMerge.
Arguments edit : clear implicits.
