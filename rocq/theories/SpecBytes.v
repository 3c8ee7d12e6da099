(** Specification vocabulary: the UTF-8 of contents, of diffs and of merges. *)
From Coq Require Import ZArith.
From Verif Require Import Base Changesets Tokenizers SpecTokenizers.
Local Open Scope Z_scope.

(** [c.encode("utf-8")] for a str, and bytes as they are *)
Definition as_utf8 (c : contents) : contents :=
  match c with
  | CStr s => CBytes (flat_map utf8_char s)
  | CBytes b => CBytes b
  end.

Definition item_as_utf8 (i : titem) : titem :=
  match i with
  | TText t => TText (as_utf8 t)
  | TChange a b => TChange (as_utf8 a) (as_utf8 b)
  end.

(** a str without surrogates: the ones that have a UTF-8 encoding *)
Definition utf8_text (c : contents) : Prop :=
  match c with CStr s => Forall scalar_value s | CBytes _ => False end.
(** every piece of a diff is such a str *)
Definition utf8_pieces (d : list titem) : Prop :=
  Forall (fun i => match i with
                   | TText t => utf8_text t
                   | TChange a b => utf8_text a /\ utf8_text b
                   end) d.

(** contents with one byte or code point per character *)
Definition ascii (l : list Z) : Prop := Forall (fun x => 0 <= x < 128) l.

(** the items of a diff or merge of two strs, as the texts they show *)
Definition as_str_item (i : ditem Z) : titem :=
  match i with DText t => TText (CStr t) | DChange a b => TChange (CStr a) (CStr b) end.
