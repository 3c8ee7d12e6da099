(** Theorems C46-C51 (tokenizers).  [re_w] stands for the character class [\w] of
    Python's regular expressions; nothing depends on what it is. *)
From Coq Require Import ZArith.
From Verif Require Import Base Changesets Tokenizers SpecTokenizers TokenizersProofs TokenizersDiff TokenizersRaise.
Local Open Scope Z_scope.

(** C46: decoding what was encoded gives it back, whatever was encoded before
    and after it with the same tokenizer. *)
Theorem C46_round_trip : forall re_w k before c later st' toks,
  Forall real_contents before -> real_contents c -> Forall real_contents later ->
  encode re_w k (after re_w k new_tokenizer before) c = (st', Ok toks) ->
  decode k (after re_w k st' later) toks = Ok c.
Proof. exact round_trip. Qed.
(** and encoding succeeds on every text of the right type, valid UTF-8 where needed *)
Theorem C46_encodes : forall re_w k before c,
  Forall real_contents before -> Forall (fun x => kind_of x = kind_of c) before ->
  encodable k c ->
  exists st' toks, encode re_w k (after re_w k new_tokenizer before) c = (st', Ok toks).
Proof. exact encodes. Qed.
(** What encode raises, whatever the tokenizer was given before: RuntimeError for contents of
    another type than the first ones, and then nothing changes; UnicodeDecodeError for bytes
    that are not UTF-8 where characters are needed. *)
Theorem C46_raises : forall re_w k before c, Forall real_contents before -> real_contents c ->
  let st := after re_w k new_tokenizer before in
  (forall c0 rest, before = c0 :: rest -> kind_of c0 <> kind_of c -> encode re_w k st c = (st, Err RuntimeError)) /\
  ((forall c0 rest, before = c0 :: rest -> kind_of c0 = kind_of c) ->
   (encodable k c -> exists st' toks, encode re_w k st c = (st', Ok toks)) /\
   (~ encodable k c -> exists st', encode re_w k st c = (st', Err UnicodeDecodeError))).
Proof. exact encode_outcome. Qed.
(** A tokenizer that was given nothing decodes characters to a str, and no lines or words. *)
Theorem C46_fresh : forall toks,
  (Forall (fun c => 0 <= c <= 1114111) toks -> decode KChar new_tokenizer toks = Ok (CStr toks)) /\
  decode KLine new_tokenizer toks = Err AttributeError /\ decode KSymbol new_tokenizer toks = Err AttributeError.
Proof. exact fresh_decode. Qed.

(** C47: two tokens handed out by any of the calls are equal iff their texts are. *)
Theorem C47_ids_are_texts : forall re_w k calls t t',
  Forall real_contents calls ->
  In t (handed_out re_w k new_tokenizer calls) -> In t' (handed_out re_w k new_tokenizer calls) ->
  exists x x', decode k (after re_w k new_tokenizer calls) [t] = Ok x /\
               decode k (after re_w k new_tokenizer calls) [t'] = Ok x' /\ (t = t' <-> x = x').
Proof. exact ids_are_texts. Qed.

(** C48: the pieces of a diff add up to the two texts. *)
Theorem C48_diff_accounts : forall re_w k before o m,
  Forall real_contents before -> Forall (fun x => kind_of x = kind_of o) before ->
  kind_of m = kind_of o -> encodable k o -> encodable k m ->
  exists st' d, diff re_w k (after re_w k new_tokenizer before) o m = (st', Ok d) /\
    text_before d = raw o /\ text_after d = raw m /\ pieces_have (kind_of o) d.
Proof. exact diff_accounts_text. Qed.

(** C49 is false of the default tokenizer, which all calls share: a diff of two
    byte strings works in a fresh interpreter and raises after a diff of two strings. *)
Theorem C49_diff_stateless_refuted : exists calls o m,
  kind_of o = kind_of m /\ encodable KNull o /\ encodable KNull m /\
  (exists d, snd (diff (fun _ => false) KNull new_tokenizer o m) = Ok d) /\
  snd (diff (fun _ => false) KNull (after_diffs (fun _ => false) KNull calls) o m) = Err RuntimeError.
Proof.
  exists [(CStr [97], CStr [98])], (CBytes [97]), (CBytes [98]).
  split; [reflexivity|]. split; [|split; [|split]].
  - split; [|exact I]. repeat constructor; vm_compute; intuition discriminate.
  - split; [|exact I]. repeat constructor; vm_compute; intuition discriminate.
  - eexists; vm_compute; reflexivity.
  - vm_compute; reflexivity.
Qed.
(** What holds: calls on texts of one type do not influence each other, for
    every tokenizer, although they share and extend its dictionary. *)
Theorem C49_diff_stateless_partial : forall re_w k calls o m,
  Forall (fun c => real_contents (fst c) /\ real_contents (snd c) /\
                   kind_of (fst c) = kind_of o /\ kind_of (snd c) = kind_of o) calls ->
  kind_of m = kind_of o -> encodable k o -> encodable k m ->
  snd (diff re_w k (after_diffs re_w k calls) o m) = snd (diff re_w k new_tokenizer o m).
Proof. exact diff_stateless. Qed.

(** C50 is false: merged never returns a merge, for any input and any state. *)
Theorem C50_merged_refuted : forall re_w k st p c o,
  exists e, snd (merged re_w k st p c o) = Err e.
Proof. exact merged_never. Qed.
(** On good input the exception is TypeError. *)
Theorem C50_merged_type_error : forall re_w k p c o,
  encodable k p -> encodable k c -> encodable k o ->
  kind_of c = kind_of p -> kind_of o = kind_of p ->
  snd (merged re_w k new_tokenizer p c o) = Err TypeError.
Proof. exact merged_type_error. Qed.

(** C51: line_encode_strings: the lines of each string, joined by newlines, give
    it back; no line occurs twice in the decoding (so ids identify lines), and
    every line there is a line of one of the strings. *)
Theorem C51_line_encode : forall strings, exists d encs,
  line_encode_strings strings = Ok (d, encs) /\ NoDup d /\
  Forall2 (fun s e => exists ls, map_res (py_index d) e = Ok ls /\ join_with [10] ls = s /\
                                 Forall (fun l => ~ In 10 l) ls) strings encs /\
  (forall l, In l d -> exists s, In s strings /\ In l (split_nl s)).
Proof. exact line_encode_round_trip. Qed.

Print Assumptions C46_round_trip.
Print Assumptions C46_encodes.
Print Assumptions C46_raises.
Print Assumptions C46_fresh.
Print Assumptions C47_ids_are_texts.
Print Assumptions C48_diff_accounts.
Print Assumptions C49_diff_stateless_refuted.
Print Assumptions C49_diff_stateless_partial.
Print Assumptions C50_merged_refuted.
Print Assumptions C50_merged_type_error.
Print Assumptions C51_line_encode.

(** Concrete cases: "ab c", "c\n" with letters as word characters. *)
Definition letters (c : Z) : bool := (97 <=? c) && (c <=? 122).
Example encodable_ex : encodable KSymbol (CBytes [97; 98; 32; 195; 169]).
Proof.
  split; [repeat constructor; vm_compute; intuition discriminate|].
  exists [97; 98; 32; 233]; split; [|reflexivity].
  repeat constructor; try (vm_compute; intuition discriminate).
Qed.
Example encode_ex :
  snd (encode letters KSymbol (after letters KSymbol new_tokenizer [CBytes [99]]) (CBytes [97; 98; 32; 99]))
  = Ok [1; 2; 0].
Proof. reflexivity. Qed.
Example decode_ex :
  decode KSymbol (after letters KSymbol new_tokenizer [CBytes [99]; CBytes [97; 98; 32; 99]; CBytes [100]]) [1; 2; 0]
  = Ok (CBytes [97; 98; 32; 99]).
Proof. reflexivity. Qed.
Example handed_out_ex :
  handed_out letters KLine new_tokenizer [CStr [97; 10; 98]; CStr [98; 10]; CBytes [1]] = [0; 1; 2; 3].
Proof. reflexivity. Qed.
Example diff_ex :
  snd (diff letters KSymbol new_tokenizer (CStr [97; 98; 32; 99]) (CStr [97; 100; 32; 99]))
  = Ok [TChange (CStr [97; 100]) (CStr [97; 98]); TText (CStr [32; 99])].
Proof. vm_compute; reflexivity. Qed.
Example stateless_ex :
  snd (diff letters KLine (after_diffs letters KLine [(CStr [98], CStr [97; 10; 99])]) (CStr [97; 10; 98]) (CStr [98]))
  = Ok [TChange (CStr []) (CStr [97; 10]); TText (CStr [98])].
Proof. vm_compute; reflexivity. Qed.
Example line_encode_ex :
  line_encode_strings [[97; 10; 98]; [98; 10]] = Ok ([[97]; [98]; []], [[0; 1]; [1; 2]]).
Proof. reflexivity. Qed.

Example C46_raises_example :
  snd (encode letters KSymbol (after letters KSymbol new_tokenizer [CStr [97]; CBytes [98]]) (CBytes [97])) = Err RuntimeError /\
  snd (encode letters KSymbol (after letters KSymbol new_tokenizer [CBytes [255]]) (CStr [97])) = Err RuntimeError /\
  snd (encode letters KChar (after letters KChar new_tokenizer [CBytes [97]]) (CBytes [255])) = Err UnicodeDecodeError.
Proof. repeat split; vm_compute; reflexivity. Qed.
