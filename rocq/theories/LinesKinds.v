(** Model of /repo/src/gaspra/tokenizers.py:221-226, [decode_and_line_diff_changes],
    and of diff_to_lines.py:86-129 on a stream whose pieces may be str or bytes.

    Lines.v has the same functions for streams of str only.  A tokenizer decodes to
    bytes when it was given bytes, and then:
    - [isinstance(fragment, str)] (line 107) fails, so a bytes fragment is passed over;
    - [conflict.a[-1:] == "\n"] (lines 28 and 33) compares bytes with a str, which is
      never true.
    The argument [transform] (line 222) is not used and is left out.  Generators are run
    to the end at once. *)
From Verif Require Import Base Changesets Tokenizers Lines.
Local Open Scope Z_scope.

(** items inside a Change: str, or Change of two pieces *)
Inductive kitem := KStr (s : list Z) | KChange (a b : contents).
(** items of the result *)
Inductive kout := KText (s : list Z) | KLines (a b : list kitem).

(** [s[-1:] == "\n"] *)
Definition ends_nl_k (c : contents) : bool := match c with CStr s => ends_nl s | CBytes _ => false end.
Definition nonempty_k (c : contents) : bool := nonempty (raw c).

Section WithSpace.
Variable space : Z -> bool.

(** diff_to_lines.py:6-21 *)
Record kacc := mkK { k_into : list kitem; k_from : list kitem; k_finishable : bool; k_conflict : bool }.
Definition new_kacc : kacc := mkK [] [] true false.
(** 23-38, add_conflict *)
Definition add_conflict_k (a b : contents) (c : kacc) : kacc :=
  let a_fin := if nonempty_k a then ends_nl_k a else k_finishable c in
  let b_fin := if nonempty_k b then ends_nl_k b else k_finishable c in
  mkK (k_into c ++ [KChange a (CStr [])]) (k_from c ++ [KChange (CStr []) b]) (a_fin && b_fin) true.
(** 48-52, add; only a str comes here *)
Definition add_frag_k (s : list Z) (c : kacc) : kacc :=
  mkK (k_into c ++ [KStr s]) (k_from c ++ [KStr s])
    (if nonempty s then ends_nl s else k_finishable c) (k_conflict c).
(** 40-46, conditional_add *)
Definition conditional_add_k (s : list Z) (c : kacc) : list Z * kacc :=
  if k_finishable c then (s, c)
  else ([], if nonempty s then add_frag_k s c else c).
(** 54-55, is_nonempty *)
Definition is_nonempty_k (c : kacc) : bool :=
  match k_into c, k_from c with _ :: _, _ :: _ => true | _, _ => false end.
(** 57-71, finish_conflict *)
Definition finish_conflict_k (s : list Z) (c : kacc) : list kout * kacc :=
  let '(s, c) := conditional_add_k s c in
  (KLines (k_into c) (k_from c) :: (if nonempty s then [KText s] else []),
   mkK [] [] (k_finishable c) false).
(** 73-83, flush *)
Definition kitem_str (i : kitem) : res (list Z) :=
  match i with KStr s => Ok s | KChange _ _ => Err TypeError end.
Definition kitem_true (i : kitem) : bool :=
  match i with KStr s => nonempty s | KChange _ _ => true end.
Definition flush_k (c : kacc) : res (list kout) :=
  if k_conflict c then Ok (fst (finish_conflict_k (if k_finishable c then [] else [10]) c))
  else match k_from c with
       | [] => Ok []
       | i :: _ => if kitem_true i then
                     let* l := map_res kitem_str (k_from c ++ [KStr [10]]) in
                     Ok [KText (concat l)]
                   else Ok []
       end.
Definition if_nonempty_k (s : list Z) : list kout := if nonempty s then [KText s] else [].

(** 103-129, handle_fragment *)
Definition handle_fragment_k (f : titem) (c : kacc) : list kout * kacc :=
  match f with
  | TChange a b => ([], add_conflict_k a b c)                               (* 104-105 *)
  | TText (CBytes _) => ([], c)                                             (* 107 fails *)
  | TText (CStr s) =>
    if k_conflict c && isspace space s then ([], add_frag_k s c)            (* 109-111 *)
    else
      let '(o1, c) := if k_finishable c && is_nonempty_k c                  (* 113-114 *)
                      then finish_conflict_k [] c else ([], c) in
      match split_nl s with
      | first :: ((_ :: _) as rest) =>                                        (* 116-117 *)
        let '(o2, c) :=
          if k_conflict c then                                              (* 118-121 *)
            let '(o, c) := finish_conflict_k (first ++ [10]) c in
            (o ++ if_nonempty_k (join_with_newline (removelast rest)), c)
          else (if_nonempty_k (join_with_newline (first :: removelast rest)), c) in (* 122-124 *)
        (o1 ++ o2, if nonempty (last rest []) then add_frag_k (last rest []) c else c) (* 126-127 *)
      | first :: [] => (o1, add_frag_k first c)                             (* 128-129 *)
      | [] => (o1, c)                                                       (* split gives at least one line *)
      end
  end.

(** 86-100, to_line_diff *)
Definition is_true_k (f : titem) : bool :=
  match f with TText t => nonempty_k t | TChange _ _ => true end.
Fixpoint handle_all_k (l : list titem) (c : kacc) : list kout * kacc :=
  match l with
  | [] => ([], c)
  | f :: l => if is_true_k f then
                let '(o, c) := handle_fragment_k f c in
                let '(o', c) := handle_all_k l c in (o ++ o', c)
              else handle_all_k l c
  end.
Definition to_line_diff_k (l : list titem) : res (list kout) :=
  let '(o, c) := handle_all_k l new_kacc in
  let* t := flush_k c in
  Ok (o ++ t ++ if existsb is_true_k l then [] else [KText []]).

(** tokenizers.py:221-226 *)
Definition decode_and_line_diff_changes (k : tkind) (st : tstate) (changes : list (ditem Z)) : res (list kout) :=
  let* d := decode_changes k st changes in to_line_diff_k d.
End WithSpace.
