(** The place of a piece of the original in the second text of a diff (C113). *)
From Verif Require Import Base Changesets.

Section SpecPlace.
Context {T : Type}.

(** the beginning of the second text of a diff that stands for the first [i] tokens of
    the first text; what is put in just behind these tokens is not part of it *)
Fixpoint upto (d : list (ditem T)) (i : nat) : list T :=
  match i with
  | 0 => []
  | S _ =>
    match d with
    | [] => []
    | DText t :: d' => firstn i t ++ upto d' (i - length t)
    | DChange a b :: d' => a ++ upto d' (i - length b)
    end
  end.

(** adjacent runs of common text written as one *)
Fixpoint join_texts (d : list (ditem T)) : list (ditem T) :=
  match d with
  | [] => []
  | DText t :: d' => match join_texts d' with DText t' :: r => DText (t ++ t') :: r | r => DText t :: r end
  | DChange a b :: d' => DChange a b :: join_texts d'
  end.
End SpecPlace.
