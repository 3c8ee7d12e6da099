(** Model of /repo/src/gaspra/tokenizers.py.
    [bytes] objects are lists of integers 0..255 and [str] objects lists of code
    points 0..0x10FFFF, both as [list Z]. *)
From Coq Require Import ZArith.
From Verif Require Import Base Changesets.
Local Open Scope Z_scope.

(** * UTF-8, as performed by the builtins [bytes.decode("utf-8")] and
    [str.encode("utf-8")] in their strict mode. *)
Definition utf8_char (c : Z) : list Z :=
  if c <? 128 then [c]
  else if c <? 2048 then [192 + c / 64; 128 + c mod 64]
  else if c <? 65536 then [224 + c / 4096; 128 + (c / 64) mod 64; 128 + c mod 64]
  else [240 + c / 262144; 128 + (c / 4096) mod 64; 128 + (c / 64) mod 64; 128 + c mod 64].

Definition is_surrogate (c : Z) : bool := (55296 <=? c) && (c <=? 57343).
Definition is_chr (c : Z) : bool := (0 <=? c) && (c <=? 1114111).

(** [s.encode("utf-8")]: surrogates raise UnicodeEncodeError (a ValueError). *)
Definition utf8_encode (s : list Z) : res (list Z) :=
  if existsb is_surrogate s then Err ValueError else Ok (flat_map utf8_char s).

Definition is_cont (b : Z) : bool := (128 <=? b) && (b <=? 191).

(** [b.decode("utf-8")]; [None] is UnicodeDecodeError. *)
Fixpoint utf8_decode (s : list Z) : option (list Z) :=
  match s with
  | [] => Some []
  | b0 :: r0 =>
    if (0 <=? b0) && (b0 <? 128) then option_map (cons b0) (utf8_decode r0)
    else match r0 with
    | [] => None
    | b1 :: r1 =>
      if (194 <=? b0) && (b0 <=? 223) then
        if is_cont b1
        then option_map (cons ((b0 - 192) * 64 + (b1 - 128))) (utf8_decode r1)
        else None
      else match r1 with
      | [] => None
      | b2 :: r2 =>
        if (224 <=? b0) && (b0 <=? 239) then
          if is_cont b1 && is_cont b2 &&
             (negb (b0 =? 224) || (160 <=? b1)) && (negb (b0 =? 237) || (b1 <=? 159))
          then option_map (cons ((b0 - 224) * 4096 + (b1 - 128) * 64 + (b2 - 128)))
                 (utf8_decode r2)
          else None
        else match r2 with
        | [] => None
        | b3 :: r3 =>
          if (240 <=? b0) && (b0 <=? 244) && is_cont b1 && is_cont b2 && is_cont b3 &&
             (negb (b0 =? 240) || (144 <=? b1)) && (negb (b0 =? 244) || (b1 <=? 143))
          then option_map (cons ((b0 - 240) * 262144 + (b1 - 128) * 4096
                                 + (b2 - 128) * 64 + (b3 - 128))) (utf8_decode r3)
          else None
        end
      end
    end
  end.

(** * Texts *)
Inductive contents := CBytes (b : list Z) | CStr (s : list Z).
Inductive skind := SBytes | SStr.
Definition kind_of (c : contents) : skind := match c with CBytes _ => SBytes | CStr _ => SStr end.
Definition raw (c : contents) : list Z := match c with CBytes b => b | CStr s => s end.
Definition mk (k : skind) (l : list Z) : contents :=
  match k with SBytes => CBytes l | SStr => CStr l end.
Definition skind_eqb (a b : skind) : bool :=
  match a, b with SBytes, SBytes | SStr, SStr => true | _, _ => false end.

(** The builtin [s.split("\n")]. *)
Fixpoint split_nl (s : list Z) : list (list Z) :=
  match s with
  | [] => [[]]
  | c :: r =>
    if c =? 10 then [] :: split_nl r
    else match split_nl r with [] => [[c]] | h :: t => (c :: h) :: t end
  end.

(** The builtin [sep.join(parts)]. *)
Fixpoint join_with (sep : list Z) (parts : list (list Z)) : list Z :=
  match parts with
  | [] => []
  | [p] => p
  | p :: rest => p ++ sep ++ join_with sep rest
  end.

(** tokenizers.py:150-151: every line but the last gets its newline back. *)
Definition lines_of (s : list Z) : list (list Z) :=
  let split := split_nl s in
  map (fun line => line ++ [10]) (removelast split) ++ [last split []].

Section WithRegex.
(** [re_w c] says whether the character class [\w] (or [\d]) of Python's [re]
    matches the code point [c]; the Unicode tables are not modelled and every
    theorem holds for every choice of [re_w]. *)
Variable re_w : Z -> bool.

(** tokenizers.py:10, the class [[\w\d$-]]; [$] is 36 and [-] is 45. *)
Definition is_word (c : Z) : bool := re_w c || (c =? 36) || (c =? 45).

Fixpoint span_word (s : list Z) : list Z * list Z :=
  match s with
  | [] => ([], [])
  | c :: r => if is_word c then let '(w, t) := span_word r in (c :: w, t) else ([], s)
  end.

(** tokenizers.py:10, 181, 184: the matches of [SYMBOLS.finditer(s)].  The first
    alternative takes a maximal run of word characters, the other two take a
    single character ([.] is every character but the newline). *)
Fixpoint symbols_loop (fuel : nat) (s : list Z) : list (list Z) :=
  match fuel with
  | O => []
  | S fuel =>
    match s with
    | [] => []
    | c :: r =>
      if is_word c then let '(w, t) := span_word r in (c :: w) :: symbols_loop fuel t
      else [c] :: symbols_loop fuel r
    end
  end.
(** each match consumes at least one character, so [length s] rounds are enough *)
Definition symbols_of (s : list Z) : list (list Z) := symbols_loop (length s) s.

(** * Tokenizer objects *)
Inductive tkind := KNull | KChar | KLine | KSymbol.

(** The attributes [source_type], [bytes_encoding]/[encoding] and
    [bytes_decoding]/[decoding] (tokenizers.py:84, 103, 130-136, 165-171); the
    decoding attribute does not exist before the first call of encode. *)
Record tstate := mkT {
  source_type : option skind;
  encoding : dict (list Z) Z;
  decoding : option (list (list Z))
}.
Definition new_tokenizer : tstate := mkT None [] None.

(** tokenizers.py:43-45, the first loop of [generic_encode]. *)
Definition enc_add (enc : dict (list Z) Z) (token : list Z) : dict (list Z) Z :=
  if dmem enc token then enc else dset enc token (Z.of_nat (length enc)).

Fixpoint lookup_all (enc : dict (list Z) Z) (l : list (list Z)) : res (list Z) :=
  match l with
  | [] => Ok []
  | t :: l => match dget enc t with
              | None => Err KeyError
              | Some i => let* r := lookup_all enc l in Ok (i :: r)
              end
  end.

(** tokenizers.py:40-49, [generic_encode]. *)
Definition generic_encode (st : tstate) (toks : list (list Z)) : tstate * res (list Z) :=
  let enc := fold_left enc_add toks (encoding st) in
  (mkT (source_type st) enc (Some (dkeys enc)), lookup_all enc toks).

(** Indexing of a Python sequence by an integer, negative indices included. *)
Definition py_index {A} (l : list A) (i : Z) : res A :=
  let n := Z.of_nat (length l) in
  let j := if i <? 0 then n + i else i in
  if (0 <=? j) && (j <? n) then
    match nth_error l (Z.to_nat j) with Some x => Ok x | None => Err IndexError end
  else Err IndexError.

Fixpoint map_res {A B} (f : A -> res B) (l : list A) : res (list B) :=
  match l with
  | [] => Ok []
  | x :: l => let* y := f x in let* r := map_res f l in Ok (y :: r)
  end.

(** tokenizers.py:34-37, [generic_decode] with an empty separator. *)
Definition generic_decode (toks : list Z) (dec : list (list Z)) : res (list Z) :=
  let* parts := map_res (py_index dec) toks in Ok (concat parts).

(** The part of [encode] after the type check of each class: tokenizers.py:96,
    111-114, 143-153, 178-190.  The last branch of SymbolTokenizer (contents that
    are neither bytes nor str) is not expressible here. *)
Definition encode_body (k : tkind) (st : tstate) (c : contents) : tstate * res (list Z) :=
  match k with
  | KNull => (st, Ok (raw c))                             (* 96 *)
  | KChar =>                                              (* 111-114 *)
    match c with
    | CBytes b => match utf8_decode b with
                  | Some s => (st, Ok s)
                  | None => (st, Err UnicodeDecodeError)
                  end
    | CStr s => (st, Ok s)
    end
  | KLine => generic_encode st (lines_of (raw c))          (* 143-153 *)
  | KSymbol =>                                            (* 178-190 *)
    match c with
    | CBytes b =>
      match utf8_decode b with
      | None => (st, Err UnicodeDecodeError)
      | Some s =>
        match map_res utf8_encode (symbols_of s) with
        | Ok toks => generic_encode st toks
        | Err e => (st, Err e)
        end
      end
    | CStr s => generic_encode st (symbols_of s)
    end
  end.

(** tokenizers.py:91-96, 105-114, 138-153, 173-190, [encode].  The state is
    returned also when an exception is raised. *)
Definition encode (k : tkind) (st : tstate) (c : contents) : tstate * res (list Z) :=
  match source_type st with
  | Some t => if skind_eqb t (kind_of c) then encode_body k st c else (st, Err RuntimeError)
  | None => encode_body k (mkT (Some (kind_of c)) (encoding st) (decoding st)) c
  end.

(** [chr(code)] and [chr(code).encode("utf-8")]. *)
Definition chr (c : Z) : res (list Z) := if is_chr c then Ok [c] else Err ValueError.
Definition chr_utf8 (c : Z) : res (list Z) := let* s := chr c in utf8_encode s.

(** tokenizers.py:98-99, 116-126, 155-161, 192-200, [decode].  The Null tokenizer
    returns its argument; that argument is a slice of something it encoded, so it
    has the type recorded in [source_type].  Joining with an empty separator of
    the wrong type would need a tokenizer that encoded nothing yet. *)
Definition src (st : tstate) : skind := match source_type st with Some SBytes => SBytes | _ => SStr end.
Definition decode (k : tkind) (st : tstate) (toks : list Z) : res contents :=
  match k with
  | KNull => Ok (mk (src st) toks)
  | KChar =>
    let* parts := map_res (match src st with SBytes => chr_utf8 | SStr => chr end) toks in
    Ok (mk (src st) (concat parts))
  | KLine | KSymbol =>
    match decoding st with
    | None => Err AttributeError
    | Some dec => let* r := generic_decode toks dec in Ok (mk (src st) r)
    end
  end.

(** * Diffs of texts *)
Inductive titem := TText (t : contents) | TChange (a b : contents).

(** tokenizers.py:203-218, [decode_changes].  It is a generator; here it is run
    to the end at once, with the tokenizer state of the time of the call. *)
Definition decode_item (k : tkind) (st : tstate) (i : ditem Z) : res titem :=
  match i with
  | DText t => let* t := decode k st t in Ok (TText t)
  | DChange a b => let* a := decode k st a in let* b := decode k st b in Ok (TChange a b)
  end.
Definition decode_changes (k : tkind) (st : tstate) (l : list (ditem Z)) : res (list titem) :=
  map_res (decode_item k st) l.

(** tokenizers.py:229-241, [diff], with the state of the tokenizer it is given. *)
Definition diff (k : tkind) (st : tstate) (original modified : contents)
  : tstate * res (list titem) :=
  match encode k st original with
  | (st, Err e) => (st, Err e)
  | (st, Ok o) =>
    match encode k st modified with
    | (st, Err e) => (st, Err e)
    | (st, Ok m) =>
      (st, let* d := diff_token_sequences o m in decode_changes k st d)
    end
  end.

(** tokenizers.py:244-263, [merged].  Line 262 passes three arguments to
    [decode_changes], which takes two (line 203): TypeError.  Of
    [merge_token_sequence] only the two changesets are computed before that,
    because its result is a generator (merge.py:54). *)
Definition merged (k : tkind) (st : tstate) (parent current other : contents)
  : tstate * res (list titem) :=
  match encode k st parent with
  | (st, Err e) => (st, Err e)
  | (st, Ok p) =>
    match encode k st current with
    | (st, Err e) => (st, Err e)
    | (st, Ok c) =>
      match encode k st other with
      | (st, Err e) => (st, Err e)
      | (st, Ok o) =>
        (st, let* _ := find_changeset p c in
             let* _ := find_changeset p o in
             Err TypeError)
      end
    end
  end.
End WithRegex.

(** tokenizers.py:13-28, [line_encode_strings]: the decoding and the encodings. *)
Fixpoint line_encode_loop (enc : dict (list Z) Z) (strings : list (list Z))
  : res (dict (list Z) Z * list (list Z)) :=
  match strings with
  | [] => Ok (enc, [])
  | s :: rest =>
    let lines := split_nl s in
    let enc := fold_left enc_add lines enc in
    let* e := lookup_all enc lines in
    let* r := line_encode_loop enc rest in
    Ok (fst r, e :: snd r)
  end.
Definition line_encode_strings (strings : list (list Z)) : res (list (list Z) * list (list Z)) :=
  let* r := line_encode_loop [] strings in Ok (dkeys (fst r), snd r).
