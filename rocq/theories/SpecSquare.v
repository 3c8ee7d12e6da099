(** Two people edit a text, each in places of their own (C132).  The text is cut into pieces:
    those nobody touches, those the first replaces and those the second replaces. *)
From Verif Require Import Base Changesets SpecDiff.

Section SpecSquare.
Context {T : Type}.
(** [a] stands where [b] was, as in a Change *)
Inductive piece : Type := Keep (t : list T) | First (a b : list T) | Second (a b : list T).

(** the text, and what it is with the edits of the first, of the second, of both *)
Definition neither (l : list piece) : list T :=
  flat_map (fun i => match i with Keep t => t | First _ b => b | Second _ b => b end) l.
Definition by_first (l : list piece) : list T :=
  flat_map (fun i => match i with Keep t => t | First a _ => a | Second _ b => b end) l.
Definition by_second (l : list piece) : list T :=
  flat_map (fun i => match i with Keep t => t | First _ b => b | Second a _ => a end) l.
Definition by_both (l : list piece) : list T :=
  flat_map (fun i => match i with Keep t => t | First a _ => a | Second a _ => a end) l.

(** Between two edits there is something nobody touches, an edit does something, and no
    token is there twice: not in the text, not in what is put in. *)
Definition is_keep (i : piece) : Prop := match i with Keep _ => True | _ => False end.
Definition all_tokens (l : list piece) : list T :=
  flat_map (fun i => match i with Keep t => t | First a b | Second a b => a ++ b end) l.
Definition separate (l : list piece) : Prop :=
  (forall k x y, nth_error l k = Some x -> nth_error l (S k) = Some y -> is_keep x \/ is_keep y) /\
  Forall (fun i => match i with Keep t => t <> [] | First a b | Second a b => ~ (a = [] /\ b = []) end) l /\
  NoDup (all_tokens l).

(** the edits of the second, as a diff shows them: in the text, or in that of the first *)
Definition shown (first : bool) (l : list piece) : list (ditem T) :=
  map (fun i => match i with
                | Keep t => DText t
                | First a b => DText (if first then a else b)
                | Second a b => DChange a b
                end) l.
(** neighbouring texts put together, empty ones left out *)
Definition glue (i : ditem T) (l : list (ditem T)) : list (ditem T) :=
  match i, l with
  | DText [], _ => l
  | DText t, DText u :: r => DText (t ++ u) :: r
  | _, _ => i :: l
  end.
Definition glued (l : list (ditem T)) : list (ditem T) := fold_right glue [] l.
End SpecSquare.
Arguments piece : clear implicits.
