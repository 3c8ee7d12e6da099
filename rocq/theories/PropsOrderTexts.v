(** Property C83 for texts, as gaspra-merge reads and writes them.  [edited], [edit_of] and
    [texts_in_turn] are in SpecOrder, [apart_edits] and [distinct_edits] in SpecEdits. *)
From Coq Require Import Lia ZArith String.
From Verif Require Import Base Changesets SpecDiff Merge SpecMerge Tokenizers Markup SpecMarkup SpecTokens SpecEdits
  SpecOrder EditsOrderTexts PropsEdits.
Local Open Scope list_scope.

(** ** C83  The order in which branches are merged does not matter *)
(** Whatever the units are, characters, lines or words: what comes out of a merge is read
    again for the next one, and its units are those that were merged, so that all orders
    give the one text that has exactly the edits of all copies.  Missing from the full
    statement is what is missing in [C83_any_order_partial]. *)
Theorem C83_texts_partial : forall re_w o p bs, real_text p -> bs <> [] ->
  (forall b, In b bs -> exists s, edited re_w o p b s) ->
  (forall e e', edit_of re_w o p bs e -> edit_of re_w o p bs e' -> apart_edits e e') ->
  exists m s, edited re_w o p m s /\ (forall e, In e (edits 0 s) <-> edit_of re_w o p bs e) /\
  forall b0 rest, (forall b, In b (b0 :: rest) <-> In b bs) -> texts_in_turn re_w o p b0 rest = Some m.
Proof. exact texts_any_order_all. Qed.
Print Assumptions C83_texts_partial.

(** Lines: the first is replaced, one is inserted, the last one dropped. *)
Definition ln (s : string) : list Z := str s ++ [10%Z].
Definition lines0 : list (ditem (list Z)) := [DChange [ln "x"] [ln "a"]; DText [ln "b"; ln "c"; ln "d"; []]].
Definition lines1 : list (ditem (list Z)) := [DText [ln "a"; ln "b"]; DChange [ln "y"] []; DText [ln "c"; ln "d"; []]].
Definition lines2 : list (ditem (list Z)) := [DText [ln "a"; ln "b"; ln "c"]; DChange [] [ln "d"]; DText [[]]].
Definition by_lines : options := mkOptions false false true false false false false.
Definition file (l : list (list Z)) : list Z := concat l.
Definition old_file : list Z := file [ln "a"; ln "b"; ln "c"; ln "d"].
Definition copies : list (list Z) := map (fun s => file (diff_after s)) [lines0; lines1; lines2].
Ltac lines_are l := exists l, (@nil Z); split; [reflexivity|]; split; [intros []|];
  repeat (apply Forall_cons; [eexists; split; [|unfold ln; reflexivity]; cbn; intuition discriminate|]); apply Forall_nil.
Ltac edited_by l m := split; [apply Forall_forall; intros x Hx; vm_compute in Hx; intuition (subst; lia)|];
  split; [split; [reflexivity|lines_are l]|]; split; [split; [reflexivity|lines_are m]|];
  split; [normal|split; [different|split; apart]].
Example C83_texts_example : (forall b, In b copies -> exists s, edited (fun _ => false) by_lines old_file b s) /\
  (forall e e', edit_of (fun _ => false) by_lines old_file copies e -> edit_of (fun _ => false) by_lines old_file copies e' -> apart_edits e e') /\
  let f s := file (diff_after s) in
  texts_in_turn (fun _ => false) by_lines old_file (f lines0) [f lines1; f lines2] = Some (file [ln "x"; ln "b"; ln "y"; ln "c"]) /\
  texts_in_turn (fun _ => false) by_lines old_file (f lines2) [f lines1; f lines2; f lines0] = Some (file [ln "x"; ln "b"; ln "y"; ln "c"]).
Proof.
  assert (E0 : edited (fun _ => false) by_lines old_file (file (diff_after lines0)) lines0)
    by (edited_by [ln "a"; ln "b"; ln "c"; ln "d"] [ln "x"; ln "b"; ln "c"; ln "d"]).
  assert (E1 : edited (fun _ => false) by_lines old_file (file (diff_after lines1)) lines1)
    by (edited_by [ln "a"; ln "b"; ln "c"; ln "d"] [ln "a"; ln "b"; ln "y"; ln "c"; ln "d"]).
  assert (E2 : edited (fun _ => false) by_lines old_file (file (diff_after lines2)) lines2)
    by (edited_by [ln "a"; ln "b"; ln "c"; ln "d"] [ln "a"; ln "b"; ln "c"]).
  assert (X : forall e, edit_of (fun _ => false) by_lines old_file copies e ->
    e = (0, [ln "x"], 1) \/ e = (2, [ln "y"], 0) \/ e = (3, [], 1)).
  { intros e (b & s & [<-|[<-|[<-|[]]]] & Ed & I);
      [rewrite (edited_unique _ _ _ _ _ _ Ed E0) in I|rewrite (edited_unique _ _ _ _ _ _ Ed E1) in I|rewrite (edited_unique _ _ _ _ _ _ Ed E2) in I];
      cbn in I; destruct I as [<-|[]]; auto. }
  split; [|split; [|split; vm_compute; reflexivity]].
  - intros b [<-|[<-|[<-|[]]]]; eauto.
  - intros e e' H H'. destruct (X e H) as [->|[->| ->]], (X e' H') as [->|[->| ->]]; unfold apart_edits, e_end; cbn;
      first [now left|right; left; cbn; lia|right; right; cbn; lia].
Qed.
(** and the theorem is not only about lines: the same with words, two copies *)
Definition by_words : options := mkOptions false true false false false false false.
Definition letters (c : Z) : bool := ((97 <=? c) && (c <=? 122))%Z.
Example C83_words_example :
  texts_in_turn letters by_words (str "one,two;three") (str "a,two;three") [str "one,two;c d"] = Some (str "a,two;c d") /\
  texts_in_turn letters by_words (str "one,two;three") (str "one,two;c d") [str "a,two;three"; str "one,two;c d"] = Some (str "a,two;c d").
Proof. split; vm_compute; reflexivity. Qed.
