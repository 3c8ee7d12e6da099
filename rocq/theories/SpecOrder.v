(** Several edited copies of a text (C83): what it means that one text is another with
    certain edits, and merging copies one after the other. *)
From Coq Require Import ZArith.
From Verif Require Import Base Changesets SpecDiff Merge SpecMerge Tokenizers Markup SpecMarkup SpecTokens SpecEdits.

Section SpecOrder.
Variable re_w : Z -> bool.
Variable o : options.

(** [b] is [p] with the edits of the script [s], in the units chosen by the options *)
Definition edited (p b : list Z) (s : list (ditem (list Z))) : Prop :=
  real_text b /\ units re_w (tokenizer_of o) (CStr p) (diff_before s) /\
  units re_w (tokenizer_of o) (CStr b) (diff_after s) /\ distinct_edits s.
(** [e] is an edit of one of the copies *)
Definition edit_of (p : list Z) (bs : list (list Z)) (e : edit (list Z)) : Prop :=
  exists b s, In b bs /\ edited p b s /\ In e (edits 0 s).
(** as [merge_in_turn], for the texts gaspra-merge reads *)
Fixpoint texts_in_turn (p m : list Z) (branches : list (list Z)) : option (list Z) :=
  match branches with
  | [] => Some m
  | b :: rest => match merge_result re_w o p m b with
                 | Ok [TText (CStr m')] => texts_in_turn p m' rest
                 | _ => None
                 end
  end.
End SpecOrder.
