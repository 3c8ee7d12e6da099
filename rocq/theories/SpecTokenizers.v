(** Specification vocabulary for tokenizers: contents that exist in Python,
    histories of encode calls and the two texts of a decoded diff. *)
From Coq Require Import ZArith.
From Verif Require Import Base Changesets Tokenizers.
Local Open Scope Z_scope.

(** bytes are 0..255 and characters are code points up to 0x10FFFF *)
Definition real_contents (c : contents) : Prop :=
  match c with
  | CBytes b => Forall (fun x => 0 <= x < 256) b
  | CStr s => Forall (fun x => 0 <= x <= 1114111) s
  end.

(** UTF-8 by its definition: the concatenation of the encodings of Unicode
    scalar values *)
Definition scalar_value (c : Z) : Prop :=
  0 <= c <= 1114111 /\ ~ (55296 <= c <= 57343).
Definition is_utf8 (b : list Z) : Prop :=
  exists s, Forall scalar_value s /\ b = flat_map utf8_char s.

(** the contents a tokenizer can encode *)
Definition encodable (k : tkind) (c : contents) : Prop :=
  real_contents c /\
  match k, c with
  | KChar, CBytes b | KSymbol, CBytes b => is_utf8 b
  | _, _ => True
  end.

Section Hist.
Variable re_w : Z -> bool.
Variable k : tkind.
(** the tokenizer after some calls of encode, whether or not they raised *)
Definition after (st : tstate) (calls : list contents) : tstate :=
  fold_left (fun st c => fst (encode re_w k st c)) calls st.
(** the tokens handed out by those calls *)
Fixpoint handed_out (st : tstate) (calls : list contents) : list Z :=
  match calls with
  | [] => []
  | c :: rest =>
    match encode re_w k st c with
    | (st', Ok toks) => toks ++ handed_out st' rest
    | (st', Err _) => handed_out st' rest
    end
  end.
(** the tokenizer after some calls of diff with it *)
Definition after_diffs (calls : list (contents * contents)) : tstate :=
  fold_left (fun st c => fst (diff re_w k st (fst c) (snd c))) calls new_tokenizer.
End Hist.

Definition text_before (d : list titem) : list Z :=
  flat_map (fun i => match i with TText t => raw t | TChange _ b => raw b end) d.
Definition text_after (d : list titem) : list Z :=
  flat_map (fun i => match i with TText t => raw t | TChange a _ => raw a end) d.
(** every piece of the diff has the type of the arguments *)
Definition pieces_have (s : skind) (d : list titem) : Prop :=
  Forall (fun i => match i with
                   | TText t => kind_of t = s
                   | TChange a b => kind_of a = s /\ kind_of b = s
                   end) d.
