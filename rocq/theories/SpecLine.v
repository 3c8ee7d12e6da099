(** Specification vocabulary: the versions a head was made from.  It speaks about
    the calls of [add] only. *)
From Verif Require Import Base Versions SpecVersions.

Section Lines.
Context {K : Type}.
Implicit Type h : list (adding K).

(** [line h x l]: [l] is [x], the head it was added to, the head that one was added
    to, and so on, as far back as adds were accepted *)
Inductive line : list (adding K) -> K -> list K -> Prop :=
| line_first h a : match base_of a with None => True | Some x => ~ is_head h x end -> line (h ++ [a]) (tag_of a) [tag_of a]
| line_next h a x l : base_of a = Some x -> is_head h x -> line h x l -> line (h ++ [a]) (tag_of a) (tag_of a :: l)
| line_keep h a x l : base_of a <> Some x -> line h x l -> line (h ++ [a]) x l.
End Lines.
