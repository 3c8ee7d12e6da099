(** Model of /repo/src/gaspra/diff_to_lines.py.

    A str is the list of its code points; newline is 10.  The stream that comes in has
    the items of a diff, [DText s] for a str and [DChange a b] for a Change of two
    str.  Generators are run to the end at once. *)
From Verif Require Import Base Changesets Tokenizers.
Local Open Scope Z_scope.

(** items inside a Change of a line diff: str, or Change of two str *)
Inductive litem := LStr (s : list Z) | LChange (a b : list Z).
(** items of a line diff: str, or Change of two tuples of such items *)
Inductive oitem := OStr (s : list Z) | OChange (a b : list litem).

(** [s[-1:] == "\n"] *)
Definition ends_nl (s : list Z) : bool :=
  match rev s with c :: _ => c =? 10 | [] => false end.

Section WithSpace.
(** [space c] says whether the builtin [isspace] holds of the code point [c]; the
    Unicode tables are not modelled and every theorem holds for every choice. *)
Variable space : Z -> bool.
(** the builtin [s.isspace()] *)
Definition isspace (s : list Z) : bool := nonempty s && forallb space s.

(** diff_to_lines.py:6-21, DiffAccumulator *)
Record acc := mkAcc {
  p_into : list litem;
  p_from : list litem;
  finishable : bool;
  in_conflict : bool
}.
Definition new_acc : acc := mkAcc [] [] true false.

(** 23-38, add_conflict *)
Definition add_conflict (a b : list Z) (c : acc) : acc :=
  let a_fin := if nonempty a then ends_nl a else finishable c in
  let b_fin := if nonempty b then ends_nl b else finishable c in
  mkAcc (p_into c ++ [LChange a []]) (p_from c ++ [LChange [] b]) (a_fin && b_fin) true.
(** 48-52, add *)
Definition add_frag (s : list Z) (c : acc) : acc :=
  mkAcc (p_into c ++ [LStr s]) (p_from c ++ [LStr s])
    (if nonempty s then ends_nl s else finishable c) (in_conflict c).
(** 40-46, conditional_add: what is left of the fragment, and the accumulator *)
Definition conditional_add (s : list Z) (c : acc) : list Z * acc :=
  if finishable c then (s, c)
  else ([], if nonempty s then add_frag s c else c).
(** 54-55, is_nonempty *)
Definition is_nonempty (c : acc) : bool :=
  match p_into c, p_from c with _ :: _, _ :: _ => true | _, _ => false end.
(** 57-71, finish_conflict *)
Definition finish_conflict (s : list Z) (c : acc) : list oitem * acc :=
  let '(s, c) := conditional_add s c in
  (OChange (p_into c) (p_from c) :: (if nonempty s then [OStr s] else []),
   mkAcc [] [] (finishable c) false).
(** 73-83, flush; the join fails on a Change *)
Definition litem_str (i : litem) : res (list Z) :=
  match i with LStr s => Ok s | LChange _ _ => Err TypeError end.
Definition litem_true (i : litem) : bool :=
  match i with LStr s => nonempty s | LChange _ _ => true end.
Definition flush (c : acc) : res (list oitem) :=
  if in_conflict c then Ok (fst (finish_conflict (if finishable c then [] else [10]) c))
  else match p_from c with
       | [] => Ok []
       | i :: _ => if litem_true i then
                     let* l := map_res litem_str (p_from c ++ [LStr [10]]) in
                     Ok [OStr (concat l)]
                   else Ok []
       end.

(** 132-136, join_with_newline *)
Definition join_with_newline (lines : list (list Z)) : list Z :=
  match lines with [] => [] | _ => join_with [10] lines ++ [10] end.
Definition if_nonempty (s : list Z) : list oitem := if nonempty s then [OStr s] else [].

(** 103-129, handle_fragment *)
Definition handle_fragment (f : ditem Z) (c : acc) : list oitem * acc :=
  match f with
  | DChange a b => ([], add_conflict a b c)                               (* 104-105 *)
  | DText s =>
    if in_conflict c && isspace s then ([], add_frag s c)                 (* 109-111 *)
    else
      let '(o1, c) := if finishable c && is_nonempty c                    (* 113-114 *)
                      then finish_conflict [] c else ([], c) in
      match split_nl s with
      | first :: ((_ :: _) as rest) =>                                      (* 116-117 *)
        let '(o2, c) :=
          if in_conflict c then                                           (* 118-121 *)
            let '(o, c) := finish_conflict (first ++ [10]) c in
            (o ++ if_nonempty (join_with_newline (removelast rest)), c)
          else (if_nonempty (join_with_newline (first :: removelast rest)), c) in (* 122-124 *)
        (o1 ++ o2, if nonempty (last rest []) then add_frag (last rest []) c else c) (* 126-127 *)
      | first :: [] => (o1, add_frag first c)                             (* 128-129 *)
      | [] => (o1, c)                                                     (* split gives at least one line *)
      end
  end.

(** 86-100, to_line_diff; a Change is a tuple of two and so always true *)
Definition is_true (f : ditem Z) : bool :=
  match f with DText s => nonempty s | DChange _ _ => true end.
Fixpoint handle_all (l : list (ditem Z)) (c : acc) : list oitem * acc :=
  match l with
  | [] => ([], c)
  | f :: l => if is_true f then
                let '(o, c) := handle_fragment f c in
                let '(o', c) := handle_all l c in (o ++ o', c)
              else handle_all l c
  end.
Definition to_line_diff (l : list (ditem Z)) : res (list oitem) :=
  let '(o, c) := handle_all l new_acc in
  let* t := flush c in
  Ok (o ++ t ++ if existsb is_true l then [] else [OStr []]).
End WithSpace.

(** 143-166, consolidate, on the items of a line diff *)
Definition flush_changes (a b : list litem) : list oitem :=
  match a, b with [], [] => [] | _, _ => [OChange a b] end.
Fixpoint consolidate_loop (l : list oitem) (a b : list litem) : list oitem :=
  match l with
  | [] => flush_changes a b
  | OChange x y :: l => consolidate_loop l (a ++ x) (b ++ y)
  | OStr s :: l => flush_changes a b ++ OStr s :: consolidate_loop l [] []
  end.
Definition consolidate_lines (l : list oitem) : list oitem := consolidate_loop l [] [].

(** 169-170, consolidated_line_diff *)
Definition consolidated_line_diff (space : Z -> bool) (l : list (ditem Z)) : res (list oitem) :=
  let* d := to_line_diff space l in Ok (consolidate_lines d).
