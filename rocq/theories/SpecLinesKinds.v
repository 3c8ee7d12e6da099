(** Specification vocabulary for line diffs of str or bytes. *)
From Verif Require Import Base Changesets SpecDiff Tokenizers Lines SpecLines LinesKinds.
Local Open Scope Z_scope.

(** the result with the kinds of its pieces left out *)
Definition bare_item (i : kitem) : litem := match i with KStr s => LStr s | KChange a b => LChange (raw a) (raw b) end.
Definition bare (i : kout) : oitem :=
  match i with KText s => OStr s | KLines a b => OChange (map bare_item a) (map bare_item b) end.
(** every piece is a str *)
Definition str_item (i : kitem) : Prop :=
  match i with KStr _ => True | KChange a b => kind_of a = SStr /\ kind_of b = SStr end.
Definition all_str (i : kout) : Prop := match i with KText _ => True | KLines a b => Forall str_item a /\ Forall str_item b end.
(** the two texts of a diff, its common text left out *)
Definition new_parts (l : list titem) : list Z :=
  flat_map (fun i => match i with TText _ => [] | TChange a _ => raw a end) l.
Definition old_parts (l : list titem) : list Z :=
  flat_map (fun i => match i with TText _ => [] | TChange _ b => raw b end) l.

(** the tokens of two texts, their diff, and the tokenizer after both *)
Definition token_diff (re_w : Z -> bool) (k : tkind) (original modified : contents) : tstate * res (list (ditem Z)) :=
  let '(st, o) := encode re_w k new_tokenizer original in
  let '(st, m) := encode re_w k st modified in
  (st, let* o := o in let* m := m in diff_token_sequences o m).
