(** Specification vocabulary for rendered output. *)
From Coq Require Import String.
From Verif Require Import Base Changesets SpecDiff Merge Tokenizers Lines SpecLines Markup.
Local Open Scope Z_scope.
Local Open Scope list_scope.

(** what git-style output looks like *)
Definition git_text (n0 n1 : list Z) (d : list oitem) : list Z :=
  flat_map (fun i => match i with
    | OStr s => s
    | OChange a b => (str "<<<<<<< " ++ n0 ++ [10]) ++ side_text a ++ str "=======" ++ [10] ++
                     side_text b ++ str ">>>>>>> " ++ n1 ++ [10]
    end) d.

(** characters that exist *)
Definition real_text (s : list Z) : Prop := Forall (fun x => 0 <= x <= 1114111) s.
(** a name that stays on one line *)
Definition one_line (s : list Z) : Prop := ~ In 10 s.

(** the merge gaspra-merge displays *)
Definition merge_result (re_w : Z -> bool) (o : options) (parent current other : list Z) : res (list titem) :=
  let k := tokenizer_of o in
  let '(st, p) := encode re_w k new_tokenizer (CStr parent) in
  let '(st, c) := encode re_w k st (CStr current) in
  let '(st, t) := encode re_w k st (CStr other) in
  let* p := p in let* c := c in let* t := t in
  let* m := merge_token_sequence KTuple p c t in decode_changes k st m.

(** an item of a diff with a second side to show: in line mode any Change, otherwise a
    Change whose second string is not empty *)
Definition removes (o : options) (i : titem) : bool :=
  match i with
  | TChange _ b => (o_show_lines o || o_git o) || nonempty (raw b)
  | TText _ => false
  end.
