(** The cases of /repo/tests and of README.md, evaluated in the model.  The repository
    cannot be run here; these are tests of the model against the results its authors
    expect, not proofs of anything.  Cases that only differ in the type of the tokens
    (str, bytes, tuple of int) are the same in the model, except where [kind] matters. *)
From Coq Require Import String Ascii.
From Verif Require Import Base Automaton Multi Changesets Merge Serialize Tokenizers Tree DbTree Versions
  Lines Markup Json Manifest Revision.
Local Open Scope Z_scope.
Local Open Scope string_scope.
Local Open Scope list_scope.

Definition T (s : string) : ditem Z := DText (str s).
Definition D (a b : string) : ditem Z := DChange (str a) (str b).
Definition NL : string := String (ascii_of_nat 10) "".
Infix "^" := String.append : string_scope.
Ltac each := repeat (apply Forall_cons; [vm_compute; repeat split|]); apply Forall_nil.

(** * README.md *)
(** lines 134-151; the dashes are U+2014 and U+2013 *)
Definition call_me := str "Call me Ishmael. Some years ago" ++ [8212] ++
  str "never mind how long precisely" ++ [8212] ++
  str "having little or no money in my purse, and nothing particular to interest me on shore, I thought I would sail about a little and see the watery part of the world".
Definition best_of_times :=
  str "It was the best of times, it was the worst of times, it was the age of wisdom, it was the age of foolishness, it was the epoch of belief, it was the epoch of incredulity, it was the season of Light, it was the season of Darkness, it was the spring of hope, it was the winter of despair, we had everything before us, we had nothing before us, we were all going direct to Heaven, we were all going direct the other way " ++ [8211] ++
  str " in short, the period was so far like the present period, that some of its noisiest authorities insisted on its being received, for good or for evil, in the superlative degree of comparison only.".
Example readme_find_lcs : find_lcs call_me best_of_times = Some (103, 321, 10)%nat.
Proof. vm_compute. reflexivity. Qed.

(** lines 162-168 *)
Definition fox := str "The quick brown fox jumps over the lazy dog near the riverbank.".
Definition fox1 := str "The quick brown fox leaps over the lazy dogs near the river.".
Definition fox2 := str "The quick, clever fox jumps across the lazy dogs by the riverbank.".
Example readme_multiple : find_lcs_multi [fox; fox1; fox2] = Some ([30; 30; 34], Some 13)%nat.
Proof. vm_compute. reflexivity. Qed.

(** lines 182-185 and tests/small/test_wrappers.py:29-41 *)
Example readme_diff :
  diff_token_sequences fox (str "The quick brown fox leaps over the lazy dogs near the river") =
  Ok [T "The quick brown fox "; D "lea" "jum"; T "ps over the lazy dog"; D "s" ""; T " near the river"; D "" "bank."].
Proof. vm_compute. reflexivity. Qed.
(** lines 199-204 *)
Example readme_diff1 : diff_token_sequences fox fox1 =
  Ok [T "The quick brown fox "; D "lea" "jum"; T "ps over the lazy dog"; D "s" ""; T " near the river"; D "" "bank"; T "."].
Proof. vm_compute. reflexivity. Qed.
Example readme_diff2 : diff_token_sequences fox fox2 =
  Ok [T "The quick"; D "," ""; T " "; D "cleve" "b"; T "r"; D "" "own"; T " fox jumps "; D "ac" "ove"; T "r";
      D "oss" ""; T " the lazy dog"; D "s" ""; T " "; D "by" "near"; T " the riverbank."].
Proof. vm_compute. reflexivity. Qed.
Example readme_merge : merge_token_sequence KStr fox fox1 fox2 =
  Ok [T "The quick, clever fox leaps across the lazy dogs by the river."].
Proof. vm_compute. reflexivity. Qed.
(** lines 212-216 *)
Definition fox3 := str "The swift, agile fox leaps over the sleepy dog near the riverside.".
Example readme_diff3 : diff_token_sequences fox fox3 =
  Ok [T "The "; D "s" "quick bro"; T "w"; D "ift, agile" "n"; T " fox "; D "lea" "jum"; T "ps over the "; D "s" "";
      T "l"; D "eep" "az"; T "y dog near the river"; D "side" "bank"; T "."].
Proof. vm_compute. reflexivity. Qed.
Example readme_conflict : merge_token_sequence KStr fox fox1 fox3 =
  Ok [T "The swift, agile fox leaps over the sleepy dogs near the river"; D "" "side"; T "."].
Proof. vm_compute. reflexivity. Qed.

(** * tests/small/test_merge.py *)
Definition merges (k : kind) (c : string * string * string * list (ditem Z)) : Prop :=
  let '(p, a, b, m) := c in merge_token_sequence k (str p) (str a) (str b) = Ok m.
Definition conflict_free : list (string * string * string * string) :=
  [("", "", "", ""); ("a", "a", "a", "a"); ("", "a", "a", "a"); ("abc", "ac", "ac", "ac"); ("a", "", "", "");
   ("a", "", "a", ""); ("", "a", "", "a"); ("a", "ax", "a", "ax"); ("ax", "a", "ax", "a"); ("a", "xa", "ay", "xay");
   ("abc", "bc", "ab", "b"); ("ab", "xab", "a", "xa"); ("ab", "b", "a", ""); ("a", "xa", "", "x");
   (".a", ".xa", ".", ".x"); ("a", "ab", "x", "xb"); ("ab", "b", "xab", "xb"); ("abcdefg", "abcxyz", "abcxyz", "abcxyz");
   ("abcdefghij", "abxyzefghij", "abcdefgpqrij", "abxyzefgpqrij")].
(** 9-106, test_merge *)
Example test_merge : forall k,
  Forall (fun c => let '(p, a, b, m) := c in merge_token_sequence k (str p) (str a) (str b) = Ok [T m]) conflict_free.
Proof. intros []; each. Qed.
(** 109-204, test_merge_conflict *)
Definition conflicts : list (string * string * string * list (ditem Z)) :=
  [("", "a", "b", [D "a" "b"]); ("a", "", "b", [D "" "b"]); ("a", "b", "", [D "b" ""]);
   ("abcdefg", "axdpefg", "abcdqey", [T "axd"; D "p" "q"; T "ey"]);
   ("ab", "xb", "yb", [D "x" "y"; T "b"]); ("ab", "b", "xb", [D "" "x"; T "b"]);
   ("spqe", "sxyqe", "sxze", [T "sx"; D "yq" "z"; T "e"]);
   ("sqe", "sxyqe", "sxze", [T "sx"; D "yq" "z"; T "e"]);
   ("spqe", "syqe", "sze", [T "s"; D "yq" "z"; T "e"]);
   ("spqe", "sqe", "sze", [T "s"; D "q" "z"; T "e"]);
   ("sye", "sxabce", "sxbe", [T "sx"; D "a" ""; T "b"; D "c" ""; T "e"]);
   ("sye", "sxabcde", "sxbde", [T "sx"; D "a" ""; T "b"; D "c" ""; T "de"]);
   ("abcdefgh", "aqdrgh", "abseth", [T "a"; D "qdrg" "bset"; T "h"])].
Example test_merge_conflict : forall k, Forall (merges k) conflicts.
Proof. intros []; each. Qed.

(** * tests/small/test_common.py *)
Example test_common_prefix_length :
  map (fun '(a, b) => common_prefix_length (str a) (str b))
    [("", ""); ("", "a"); ("x", "y"); ("xy", "yz"); ("a", "a"); ("ab", "ab"); ("ab", "ac"); ("abc", "abd"); ("abcd", "abde")]
  = [0; 0; 0; 0; 1; 2; 1; 2; 2]%nat.
Proof. reflexivity. Qed.

(** * tests/small/test_wrappers.py:14-26 *)
Example test_wrappers_find_substring :
  find_substring (str "Artistic alarms alarm artistically.") (str "stic") = Some [4; 26]%nat /\
  find_substring (str "Artistic alarms alarm artistically.") (str "ti") = Some [2; 5; 24; 27]%nat.
Proof. vm_compute. repeat split. Qed.
Example test_wrappers_find_lcs :
  find_lcs (str "Fantastic farmers farm finely.") (str "Artistic alarms alarm artistically.") = Some (5, 4, 5)%nat.
Proof. vm_compute. reflexivity. Qed.

(** * tests/small/test_multiple_strings.py *)
Example test_concatenate_strings :
  concatenate_strings (@Sep Z) (map (map (@Tok Z)) [[1; 2]; [3; 4]; [5; 6]]) =
  [Tok 1; Tok 2; Sep 0; Tok 3; Tok 4; Sep 1; Tok 5; Tok 6; Sep 2].
Proof. reflexivity. Qed.
Example test_find_lcs_of_multiple_strings :
  map (fun ss => find_lcs_multi (map str ss))
    [[]; [""; ""]; [""; "abc"]; ["abc"; ""]; ["abc"; "abc"]; ["abc"; "abcdef"]; ["abcdef"; "def"];
     ["abc"; "xbc"; "bcxy"]; ["abcd"; "bcdax"; "yzbcd"]] =
  map Some [([], None); ([0; 0], Some 0); ([0; 0], Some 0); ([0; 0], Some 0); ([0; 0], Some 3); ([0; 0], Some 3);
     ([3; 0], Some 3); ([1; 1; 0], Some 2); ([1; 0; 2], Some 3)]%nat.
Proof. vm_compute. reflexivity. Qed.

(** * tests/small/test_changesets.py.  The last case is [random_string("abcdef", n)] with
    seed 42. *)
Definition changeset_cases : list (string * string) :=
  [("", ""); ("abcabcabc", ""); ("", "abxybcabcx"); ("abcabcabc", "abcabcabcxyz"); ("abcabcabc", "xyzabcabcabc");
   ("abcabcabc", "abxybcabcx");
   ("dabbeefacabdabddbdeaeecafcaafdeedfcdedfdeabbababdcc", "dabbeefacabdabddbdeaeecafcaafdeedfcdedfdeabbababdccbb")].
Example test_changesets : Forall (fun '(s1, s2) =>
  match find_changeset (str s1) (str s2) with
  | Ok c =>
    let st := as_change_stream c in
    old_apply_forward c (str s1) = str s2 /\ old_apply_reverse c (str s2) = str s1 /\
    Changesets.apply (strip_forward st) (str s1) = str s2 /\ Changesets.apply (strip_reverse st) (str s2) = str s1 /\
    apply_forward st (str s1) = str s2 /\ apply_reverse st (str s2) = str s1
  | Err _ => False
  end) changeset_cases.
Proof. each. Qed.

(** * tests/small/test_suffix_automaton.py *)
Definition is_suffix_of (s w : list Z) : bool := teq (skipn (length s - length w) s) w.
(** 15-99: each suffix, once *)
Example test_all_suffixes : Forall (fun t =>
  let s := str t in
  match build s with
  | Some h => match all_suffixes h with
              | Some l => forallb (is_suffix_of s) l = true /\
                          forallb (fun n => Nat.eqb (count_occ Nat.eq_dec (map (@length Z) l) n) 1) (seq 0 (S (length s))) = true /\
                          length l = S (length s)
              | None => False
              end
  | None => False
  end) [""; "bananas"; "abcbc"; "baaacccabaabaabbabca"].
Proof. each. Qed.
(** 102-138 *)
Definition find_in (s w : string) : option (option nat) :=
  match build (str s) with Some h => sa_find_substring h (str w) | None => None end.
Example test_find_substring :
  map (fun '(s, w) => find_in s w)
    [("", "anything"); ("bananas", "bananasx"); ("bananas", "xbananas"); ("anything", ""); ("", "")] =
  [Some None; Some None; Some None; Some (Some 0%nat); Some (Some 0%nat)].
Proof. vm_compute. reflexivity. Qed.
(** 141-162: all substrings are found, where they are *)
Example test_find_substring_on_all_substrings : Forall (fun t =>
  let s := str t in
  match build s with
  | Some h => forallb (fun i => forallb (fun n => let w := firstn n (skipn i s) in
      match sa_find_substring h w with
      | Some (Some p) => teq (firstn n (skipn p s)) w
      | _ => false
      end) (seq 1 (length s - 1 - i))) (seq 0 (length s)) = true
  | None => False
  end) ["bananas"; "abcbc"; "baaacccabaabaabbabca"].
Proof. each. Qed.
(** 214-254 *)
Example test_find_substring_all :
  map (fun '(s, w) => find_substring (str s) (str w))
    [("abcdefg", "def"); ("anything", ""); ("", ""); ("abcabc", "abc"); ("", "anything"); ("bananas", "sana");
     ("bananas", "bananasx"); ("bananas", "xbananas")] =
  map Some [[3]; [0; 1; 2; 3; 4; 5; 6; 7; 8]; [0]; [0; 3]; []; []; []; []]%nat.
Proof. vm_compute. reflexivity. Qed.
(** 257-338; the third pair is made of random strings *)
Definition lcs_ok (c : string * string * nat) : Prop :=
  let '(a, b, n) := c in
  match find_lcs (str a) (str b) with
  | Some (i, j, k) => (n <=? k)%nat = true /\ firstn k (skipn i (str a)) = firstn k (skipn j (str b)) /\
      orb (negb (teq (pyslice (str a) (i - 1) (Some (i + k))%nat) (pyslice (str b) (j - 1) (Some (j + k))%nat)))
          (negb (teq (pyslice (str a) i (Some (i + k + 1)%nat)) (pyslice (str b) j (Some (j + k + 1)%nat)))) = true
  | None => False
  end.
Example test_find_lcs : Forall lcs_ok
  [("bananas", "xnanananx", 5%nat); ("abcabcxyzfoo", "xyzafabcxyzfaz", 7%nat);
   ("baabaacbcbbcbcbcbaacacccabaaba", "acabccbaacbcbbcbcbcbaaccabaaba", 17%nat)].
Proof. each. Qed.
(** 341-368 *)
Example test_find_lcs_null :
  map (fun '(a, b) => find_lcs (str a) (str b)) [("abc", "xyz"); ("", "xyz"); ("abc", ""); ("", "")] =
  repeat (Some (0, 0, 0)%nat) 4.
Proof. vm_compute. reflexivity. Qed.
(** tests/medium/test_suffix_automaton_long.py:12-23, with a tenth of the length *)
Example test_find_substring_all_depth : find_substring (repeat 97 200) [97] = Some (seq 0 200).
Proof. vm_compute. reflexivity. Qed.

(** * tests/small/test_serialize.py *)
Definition PD (s : string) : pitem Z := PData (str s).
Definition PS (a b : nat) : pitem Z := PSlice (a, Some b).
Example test_serialize :
  serialize_changeset [PD "abc"; PS 1 2; PD "xyz"] = Ok ([3] ++ str "abc" ++ [1; 2; 3] ++ str "xyz") /\
  serialize_changeset [PS 1 2; PD "abc"; PS 3 4] = Ok ([0; 1; 2; 3] ++ str "abc" ++ [3; 4]).
Proof. vm_compute. repeat split. Qed.
Example test_round_trip : Forall (fun c =>
  match serialize_changeset c with Ok s => deserialize_changeset s = (c, None) | Err _ => False end)
  [[PD "abc"; PS 1 2; PD "xyz"]; [PS 1 2; PD "abc"; PS 3 4]; [PD "abc"; PS 1 2; PS 3 4; PD "xyz"];
   [PS 1 2; PS 3 4; PD "xyz"]].
Proof. each. Qed.
Example test_round_trip_vserialize_int : Forall (fun v =>
  match vserialize_int v with Ok s => vdeserialize_int s = Ok (v, []) | Err _ => False end)
  [0; 1; 239; 240; 241; 2286; 2287; 2288; 67822; 67823; 67824; 16777214; 16777215; 16776216; 4294967294; 4294967295;
   4294967296; 1099511627774; 1099511627775; 18446744073709551615].
Proof. each. Qed.
Example test_large_values_fail_to_serialize : vserialize_int 18446744073709551616 = Err OverflowError.
Proof. vm_compute. reflexivity. Qed.

(** * tests/small/test_tokenizers.py *)
(** the ASCII part of the class backslash-w *)
Definition ascii_word (c : Z) : bool :=
  ((48 <=? c) && (c <=? 57) || (65 <=? c) && (c <=? 90) || (97 <=? c) && (c <=? 122) || (c =? 95))%Z.
Definition encoder_cases : list (list Z) :=
  map str ["a b c" ^ NL ^ "xx y z" ^ NL; "abc def xyz" ^ NL ^ "1234 456 789" ^ NL;
           "a += b*c;" ^ NL ^ "   switch() {};"; "the quick brown fox"; "$abc a-b-c d_e" ^ NL ^ "xyz"; "$ABC!@#$%^&*()"].
Definition encodes (k : tkind) (c : contents) : Prop :=
  match Tokenizers.encode ascii_word k new_tokenizer c with
  | (st, Ok toks) =>
    match k with KLine | KSymbol => (length toks <? length (raw c))%nat = true | _ => True end /\
    Tokenizers.decode k st toks = Ok c
  | (_, Err _) => False
  end.
Example test_generic_encoder : forall k, Forall (fun s => encodes k (CStr s) /\ encodes k (CBytes s)) encoder_cases.
Proof. intros []; each. Qed.
Example test_generic_encoder_all_bytes :
  let c := CBytes (map Z.of_nat (seq 0 256)) in encodes KNull c /\ encodes KLine c.
Proof. vm_compute. repeat split. Qed.
Example test_line_encode : Forall (fun s =>
  match line_encode_strings [str s] with
  | Ok (mapper, [stream]) => match map_res (py_index mapper) stream with
                             | Ok lines => join_with [10] lines = str s
                             | Err _ => False
                             end
  | _ => False
  end)
  [""; NL; NL ^ NL; NL ^ NL ^ NL; "a"; "a" ^ NL; "a" ^ NL ^ NL; "a" ^ NL ^ "b"; "a" ^ NL ^ "b" ^ NL;
   "a" ^ NL ^ "b" ^ NL ^ "c"; "a" ^ NL ^ "b" ^ NL ^ "c" ^ NL; NL ^ "a" ^ NL ^ "b" ^ NL ^ "c" ^ NL].
Proof. each. Qed.

(** * tests/small/test_tree.py, for MemoryTree and DBTree *)
Definition TAGS : list (list Z) := map str ["a"; "b"; "c"; "z"; "x"; "y"; "q"; "r"; "s"; "t"].
Section Trees.
Variable TR : tree_impl (list Z).
Definition step1 (r : res (tree_t TR)) (f : tree_t TR -> tree_t TR * res unit) : res (tree_t TR) :=
  match r with
  | Ok t => match f t with (t, Ok _) => Ok t | (_, Err e) => Err e end
  | Err e => Err e
  end.
(** the state after each round; [link] tells what is done after the add *)
Fixpoint rounds (link : list Z -> list Z -> res (tree_t TR) -> res (tree_t TR)) (base : option (list Z))
    (r : res (tree_t TR)) (tags : list (list Z)) : list (res (tree_t TR)) :=
  match tags with
  | [] => []
  | tag :: tags =>
    let r := step1 r (tr_add TR tag base) in
    let r := match base with Some b => link b tag r | None => r end in
    r :: rounds link (Some tag) r tags
  end.
Definition no_link (b tag : list Z) (r : res (tree_t TR)) := r.
Definition linear (b tag : list Z) (r : res (tree_t TR)) := step1 r (tr_change_parent TR b tag).
Definition with_split (b tag : list Z) (r : res (tree_t TR)) : res (tree_t TR) :=
  match r with
  | Ok t => match tr_get_split TR t b with
            | Ok (split, _) =>
              let r := if teq split b then r else step1 r (tr_change_parent TR split tag) in
              step1 r (tr_change_parent TR b tag)
            | Err e => Err e
            end
  | Err e => Err e
  end.
Definition paths (tags : list (list Z)) (r : res (tree_t TR)) : list (res (option (list (list Z)))) :=
  match r with Ok t => map (tr_path_to TR t) tags | Err e => [Err e] end.
Definition bases (r : res (tree_t TR)) : list (res (option (list Z))) :=
  match r with Ok t => map (tr_base TR t) TAGS | Err e => [Err e] end.
Definition members (r : res (tree_t TR)) : list bool :=
  match r with Ok t => map (tr_contains TR t) TAGS | Err _ => [] end.
Definition start : res (tree_t TR) := Ok (tr_empty TR).
End Trees.
Definition P (s : string) : res (option (list (list Z))) := Ok (Some (map (fun c => [c]) (str s))).
Example test_tree :
  let check TR :=
    (* 48-54 *)
    map (members TR) (rounds TR (no_link TR) None (start TR) TAGS) =
      map (fun i => repeat true i ++ repeat false (10 - i)) (seq 1 10) /\
    (* 57-63 *)
    map (fun '(tag, r) => paths TR [tag] r) (combine TAGS (rounds TR (no_link TR) None (start TR) TAGS)) =
      map (fun tag => [Ok (Some [tag])]) TAGS /\
    (* 66-78 *)
    map (fun '(i, r) => paths TR (firstn i TAGS) r) (combine (seq 1 10) (rounds TR (linear TR) None (start TR) TAGS)) =
      map (fun i => map (fun j => Ok (Some (rev (skipn j (firstn i TAGS))))) (seq 0 i)) (seq 1 10) /\
    (* 81-92, EXPECTED_PATHS *)
    map (fun '(i, r) => paths TR (firstn i TAGS) r) (combine (seq 1 7) (rounds TR (with_split TR) None (start TR) TAGS)) =
      map (map P) [["a"]; ["ba"; "b"]; ["ca"; "cb"; "c"]; ["zca"; "zb"; "zc"; "z"]; ["xca"; "xzb"; "xc"; "xz"; "x"];
                   ["yxca"; "yzb"; "yxc"; "yz"; "yx"; "y"]; ["qca"; "qyzb"; "qc"; "qyz"; "qyx"; "qy"; "q"]] /\
    (* 95-104 *)
    map (bases TR) (skipn 9 (rounds TR (no_link TR) None (start TR) TAGS)) =
      [map Ok (None :: map Some (firstn 9 TAGS))] in
  check (memory_tree (list Z)) /\ check (db_tree (list Z)).
Proof. vm_compute. repeat split. Qed.

(** * tests/small/test_db_collections.py *)
Definition three := map str ["0"; "1"; "2"].
Definition filled (place : nat) (f : list Z -> list Z) := fold_left (fun t k => c_setitem place k (f k) t) three [].
Example test_db_collections :
  map (c_contains (filled 0 (fun _ => [120]))) three = [true; true; true] /\
  map (c_getitem (filled 0 (fun k => k))) three = map (@Ok (list Z)) three /\
  map (fun n => c_len (fold_left (fun t k => c_setitem 0 k [120] t) (firstn n three) [])) (seq 0 4) = [0; 1; 2; 3]%nat /\
  c_getitem (fold_left (fun t k => c_setitem 0 [120] k t) three []) [120] = Ok (str "2") /\
  map (fun n => c_len (fold_left (fun t k => fst (c_delitem k t)) (firstn n three) (filled 0 (fun _ => [120])))) (seq 0 4)
    = [3; 2; 1; 0]%nat /\
  c_getitem (K := list Z) (V := list Z) [] [97] = Err KeyError /\
  snd (c_delitem (K := list Z) (V := list Z) [97] []) = Err KeyError.
Proof. vm_compute. repeat split. Qed.
(** 38-42 expect the order of insertion, which the model only has if rows are appended
    (SQL promises no order; see DbTree.v) *)
Example test_iterate_yields_inserted_values :
  c_iter (fold_left (fun t k => c_setitem (length t) k [120] t) three []) = three.
Proof. vm_compute. reflexivity. Qed.

(** * tests/small/test_versions.py *)
Definition VERSIONS : list (list Z) :=
  map str ["a b c d e f g"; "a c e f g"; "a c d x y g"; "a c d x y g x y z"; "d x y g x y    z"; "d x y g x y z q r    s"].
Definition version_adds : list (nat * list Z * option nat) :=
  map (fun '(i, s) => (i, s, match i with O => None | S j => Some j end)) (combine (seq 0 6) VERSIONS).
Definition after (k : tkind) (n : nat) :=
  run ascii_word k (dict_store nat) (dict_store nat) (memory_tree nat) v_empty (firstn n version_adds).
(** 15-26 and 29-55, with NullTokenizer and SymbolTokenizer *)
Example test_versions_get : forall k, k = KNull \/ k = KSymbol ->
  map (fun n => map (fun i => get ascii_word k _ _ _ (after k n) i) (seq 0 6)) (seq 0 7) =
  map (fun n => map (fun s => Ok (Some s)) (firstn n VERSIONS) ++ repeat (Ok None) (6 - n)) (seq 0 7).
Proof. intros k [-> | ->]; vm_compute; reflexivity. Qed.
(** 58-81 *)
Definition info (n i : nat) := version_info (dict_store nat) (dict_store nat) (memory_tree nat) (after KNull n) i.
Example test_expected_version_info :
  map (fun '(i, s) => info (S i) i) (combine (seq 0 6) VERSIONS) =
    map (fun '(i, s) => Ok (Some (match i with O => None | S j => Some j end, length s, O))) (combine (seq 0 6) VERSIONS) /\
  forallb (fun '(i, s) => match info 6 i with
    | Ok (Some (base, tokens, changes)) =>
      (match base, i with None, O => true | Some j, S i => Nat.eqb j i | _, _ => false end)
      && (tokens <? length s)%nat && (0 <? changes)%nat
    | _ => false
    end) (firstn 5 (combine (seq 0 6) VERSIONS)) = true.
Proof. split; vm_compute; reflexivity. Qed.

(** * tests/small/test_manifest.py *)
Definition TS (s : string) : tag := TStr (str s).
Definition ITEMS : dict tag (list Z) :=
  map (fun '(t, b) => (TS t, str b))
    [("f0v0", "a"); ("f0v1", "ab"); ("f0v2", "abc"); ("f0v3", "abcd"); ("f1v0", "1"); ("f1v1", "12"); ("f1v2", "123");
     ("f2v0", "x"); ("f2v1", "xy")].
Definition files (a b c : string) : manifest := [(TS "f0", TS a); (TS "f1", TS b); (TS "f2", TS c)].
Definition MANIFESTS : list (tag * manifest) :=
  [(TS "m0", files "f0v0" "f1v0" "f2v0"); (TS "m1", files "f0v1" "f1v1" "f2v0");
   (TS "m2", files "f0v2" "f1v2" "f2v0"); (TS "m3", files "f0v3" "f1v2" "f2v1")].
Definition as_json (m : manifest) : json :=
  JObj (map (fun '(k, v) => match k, v with TStr k, TStr v => (k, JStr v) | _, _ => ([], JNull) end) m).
Example test_conversions : Forall (fun '(_, m) =>
  match manifest_to_doc m with Ok doc => doc_to_manifest doc = Ok (as_json m) | Err _ => False end) MANIFESTS.
Proof. each. Qed.
Notation DT := (dict_store tag).
Notation MT := (memory_tree tag).
Definition loaded : vstate DT DT MT :=
  fold_left (fun v '(t, m, base) => fst (snd (add_manifest ascii_word KNull DT DT MT t m ITEMS base v)))
    (combine MANIFESTS (None :: map (fun x => Some (fst x)) MANIFESTS)) v_empty.
Example test_add_manifest :
  map (get_manifest ascii_word KNull DT DT MT loaded) (map fst MANIFESTS) = map (fun '(_, m) => Ok (as_json m)) MANIFESTS /\
  forallb (contains DT DT MT loaded) (map fst ITEMS) = true /\
  map (get ascii_word KNull DT DT MT loaded) (map fst ITEMS) = map (fun '(_, b) => Ok (Some b)) ITEMS /\
  map (fun '(t, _) => match version_info DT DT MT loaded t with Ok (Some (b, _, _)) => Some b | _ => None end) ITEMS =
    map Some [None; Some (TS "f0v0"); Some (TS "f0v1"); Some (TS "f0v2"); None; Some (TS "f1v0"); Some (TS "f1v1");
              None; Some (TS "f2v0")] /\
  forallb (fun '(t, b) => match version_info DT DT MT loaded t with
    | Ok (Some (_, tokens, changes)) => (0 <? changes)%nat && (tokens <? length b)%nat
    | _ => false
    end) (filter (fun '(t, _) => negb (existsb (teq t) [TS "f0v3"; TS "f1v2"; TS "f2v1"])) ITEMS) = true.
Proof. vm_compute. repeat split. Qed.

(** * tests/small/test_markup.py *)
Definition TEST0 : markup :=
  mkMarkup (Branch (fun s => str "< " ++ show_name s ++ newline) (const "[i]"))
           (Branch (const "[f]") (fun s => str "> " ++ show_name s ++ newline))
           (str ("=" ^ NL)) (Some (str "{", str "}")).
Definition TEST1 : markup := mkMarkup (Branch (const "<") (const ">")) (Branch (const "[") (const "]")) (str "|") None.
Definition MT' (s : string) : mitem := MStr (str s).
Definition markup_cases : list (list mitem * string * string) :=
  [([MT' ""], "", ""); ([MT' NL], NL, NL); ([MT' (NL ^ NL)], NL ^ NL, NL ^ NL); ([MT' ("a" ^ NL)], "a" ^ NL, "A" ^ NL);
   ([MT' ("a" ^ NL ^ NL)], "a" ^ NL ^ NL, "A" ^ NL ^ NL); ([MT' ("a" ^ NL ^ "b" ^ NL)], "a" ^ NL ^ "b" ^ NL, "A" ^ NL ^ "B" ^ NL);
   ([MChange (Flat (str ("a" ^ NL))) (Flat (str ("b" ^ NL)))],
    "< x" ^ NL ^ "a" ^ NL ^ "[i]=" ^ NL ^ "[f]b" ^ NL ^ "> y" ^ NL, "< x" ^ NL ^ "A" ^ NL ^ "[i]=" ^ NL ^ "[f]B" ^ NL ^ "> y" ^ NL);
   ([MT' ("a" ^ NL);
     MChange (Nested [LStr (str "b"); LChange (str "c") []; LStr newline])
             (Nested [LStr (str "d"); LChange [] (str "e"); LStr newline]); MT' ("f" ^ NL)],
    "a" ^ NL ^ "< x" ^ NL ^ "b<c>|" ^ NL ^ "[i]=" ^ NL ^ "[f]d|[e]" ^ NL ^ "> y" ^ NL ^ "f" ^ NL,
    "A" ^ NL ^ "< x" ^ NL ^ "B<C>|" ^ NL ^ "[i]=" ^ NL ^ "[f]D|[E]" ^ NL ^ "> y" ^ NL ^ "F" ^ NL)].
Definition upper (s : list Z) : list Z := map (fun c => if ((97 <=? c) && (c <=? 122))%Z then c - 32 else c) s.
Example test_markup_changes : Forall (fun '(l, plain, capital) =>
  let out escape := let o := markup_changes escape l TEST0 (Some TEST1) (Some (str "x")) (Some (str "y")) None in
                    (concat (fst o), snd o) in
  out (fun s => s) = (str plain, None) /\ out upper = (str capital, None)) markup_cases.
Proof. each. Qed.

(** * src/deprecated/test_revision_tree.py, lines 10-38 *)
Local Open Scope nat_scope.
Example revision_tests :
  let ins n := r_insert_all (seq 0 n) r_empty in
  (let* t := ins 7 in r_edges t) = Ok [(6, 5); (5, 4); (5, 3); (3, 1); (6, 2); (2, 0)] /\
  (let* t := ins 6 in let* r := r_insert 6 t in Ok (snd r)) = Ok ([(6, 5); (6, 2)], [(4, 2)]) /\
  (let* t := ins 10 in r_path_to t 0) = Ok [9; 6; 2; 0].
Proof. vm_compute. repeat split; reflexivity. Qed.
