(** What the tokens of a text are, by their definition and not by the program: single
    units, characters, lines, words. *)
From Coq Require Import ZArith.
From Verif Require Import Base Changesets Tokenizers SpecTokenizers.
Local Open Scope Z_scope.

Section SpecTokens.
Variable re_w : Z -> bool.
(** letters, digits and the underscore as Python's [re] has them, and dollar and hyphen *)
Definition word_char (c : Z) : Prop := re_w c = true \/ c = 36 \/ c = 45.
Definition word (t : list Z) : Prop := t <> [] /\ Forall word_char t.
(** words and single other characters; words are as long as possible *)
Definition words (ts : list (list Z)) : Prop :=
  Forall (fun t => word t \/ exists c, t = [c] /\ ~ word_char c) ts /\
  forall x t t' y, ts = x ++ t :: t' :: y -> ~ (word t /\ word t').
(** lines with their newline, and what follows the last newline *)
Definition text_lines (ts : list (list Z)) : Prop :=
  exists lines rest, ts = lines ++ [rest] /\ ~ In 10 rest /\
    Forall (fun t => exists l, ~ In 10 l /\ t = l ++ [10]) lines.

(** [ts] are the tokens of [c] *)
Definition units (k : tkind) (c : contents) (ts : list (list Z)) : Prop :=
  concat ts = raw c /\
  match k, c with
  | KNull, _ | KChar, CStr _ => Forall (fun t => length t = 1%nat) ts
  | KChar, CBytes _ => Forall (fun t => exists x, scalar_value x /\ t = utf8_char x) ts
  | KLine, _ => text_lines ts
  | KSymbol, CStr _ => words ts
  | KSymbol, CBytes _ => exists us, Forall (Forall scalar_value) us /\ ts = map (flat_map utf8_char) us /\ words us
  end.

(** the items of a diff of tokens, each piece put together *)
Definition pieces (s : skind) (i : ditem (list Z)) : titem :=
  match i with
  | DText t => TText (mk s (concat t))
  | DChange a b => TChange (mk s (concat a)) (mk s (concat b))
  end.
End SpecTokens.
