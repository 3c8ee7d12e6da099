(** Edits as somebody makes them: a script says what is kept, what is replaced and by
    what.  It is written like a diff, but nothing says that it has been computed. *)
From Verif Require Import Base Changesets SpecDiff Merge SpecMerge.

Section SpecEdits.
Context {T : Type}.

(** the tokens a script keeps, and those it removes; [inserted] are those it inserts *)
Definition kept (s : list (ditem T)) : list T :=
  flat_map (fun i => match i with DText t => t | DChange _ _ => [] end) s.
Definition taken (s : list (ditem T)) : list T :=
  flat_map (fun i => match i with DText _ => [] | DChange _ b => b end) s.

(** Every token kept is the only one of its kind, what is inserted is new, and what is
    removed is gone: a text whose lines are all different, say, with other lines put
    in some places. *)
Definition distinct_edits (s : list (ditem T)) : Prop :=
  normal_diff s /\ NoDup (kept s) /\ disjoint (inserted s) (diff_before s) /\
  disjoint (taken s) (diff_after s).

(** a merge result without conflict *)
Definition no_conflict (r : list (ditem T)) : Prop := forall a b, ~ In (DChange a b) r.
End SpecEdits.

(** ** Merging one copy after the other *)
(** the same edit, or edits with a token of the parent between them *)
Definition apart_edits {T} (e0 e1 : edit T) : Prop := e0 = e1 \/ e_end e0 < e_pos e1 \/ e_end e1 < e_pos e0.

(** [m] is merged with the first of the branches, what comes out with the next, and so
    on; none of the merges may have a conflict *)
Fixpoint merge_in_turn {T} {E : Teq T} (k : kind) (p m : list T) (branches : list (list T)) : option (list T) :=
  match branches with
  | [] => Some m
  | b :: rest => match merge_token_sequence k p m b with
                 | Ok [DText m'] => merge_in_turn k p m' rest
                 | _ => None
                 end
  end.
