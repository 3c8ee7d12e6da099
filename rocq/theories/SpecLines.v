(** Specification vocabulary for line diffs and their rendering: texts and lines. *)
From Verif Require Import Base Changesets SpecDiff Lines.
Local Open Scope Z_scope.

(** the text of a tuple of items, and the two texts of a line diff *)
Definition litem_text (i : litem) : list Z := match i with LStr s => s | LChange a b => a ++ b end.
Definition side_text (l : list litem) : list Z := flat_map litem_text l.
Definition into_text (d : list oitem) : list Z :=
  flat_map (fun i => match i with OStr s => s | OChange a _ => side_text a end) d.
Definition from_text (d : list oitem) : list Z :=
  flat_map (fun i => match i with OStr s => s | OChange _ b => side_text b end) d.

(** empty, or the last character is a newline *)
Definition whole_lines (s : list Z) : Prop := s = [] \/ exists s', s = s' ++ [10].
(** an item of a line diff is made of whole lines *)
Definition whole_item (i : oitem) : Prop :=
  match i with OStr s => whole_lines s | OChange a b => whole_lines (side_text a) /\ whole_lines (side_text b) end.

(** the text ends with a newline or is empty *)
Definition ends_line (s : list Z) : bool := match rev s with [] => true | c :: _ => c =? 10 end.
(** the newline added to both texts when one of them does not end its last line *)
Definition last_newline (s t : list Z) : list Z := if ends_line s && ends_line t then [] else [10].

(** leave out the empty strings *)
Definition visible (l : list (ditem Z)) : list (ditem Z) :=
  filter (fun i => match i with DText [] => false | _ => true end) l.
(** no two strings next to each other *)
Definition no_text_twice (l : list (ditem Z)) : Prop :=
  forall k s t, nth_error l k = Some (DText s) -> nth_error l (S k) = Some (DText t) -> False.
Definition no_change_twice (l : list oitem) : Prop :=
  forall k a b a' b', nth_error l k = Some (OChange a b) -> nth_error l (S k) = Some (OChange a' b') -> False.
Definition strings (l : list oitem) : list (list Z) :=
  flat_map (fun i => match i with OStr s => [s] | OChange _ _ => [] end) l.

(** * Git-style output, read line by line *)
(** the lines of a text, each with its newline (the last one may have none) *)
Fixpoint text_lines (s : list Z) : list (list Z) :=
  match s with
  | [] => []
  | c :: s => if c =? 10 then [10] :: text_lines s
              else match text_lines s with [] => [[c]] | l :: ls => (c :: l) :: ls end
  end.
(** [starts p l] *)
Fixpoint starts (p l : list Z) : bool :=
  match p, l with
  | [], _ => true
  | x :: p, y :: l => (x =? y) && starts p l
  | _ :: _, [] => false
  end.
(** "<<<<<<< ", "=======", ">>>>>>> " *)
Definition opening (l : list Z) : bool := starts [60;60;60;60;60;60;60;32] l.
Definition middle (l : list Z) : bool := starts [61;61;61;61;61;61;61] l.
Definition closing (l : list Z) : bool := starts [62;62;62;62;62;62;62;32] l.
Definition marker (l : list Z) : bool := opening l || middle l || closing l.
Definition no_markers (s : list Z) : Prop := Forall (fun l => marker l = false) (text_lines s).

(** where in a conflict a line is *)
Inductive place := Common | First | Second.
(** what remains of the lines when the markers and the other side are left out;
    None when markers come in a wrong order or are missing *)
Fixpoint strip (first : bool) (p : place) (ls : list (list Z)) : option (list Z) :=
  match ls with
  | [] => match p with Common => Some [] | _ => None end
  | l :: ls =>
    if marker l then
      match p with
      | Common => if opening l then strip first First ls else None
      | First => if middle l then strip first Second ls else None
      | Second => if closing l then strip first Common ls else None
      end
    else
      let keep := match p with Common => true | First => first | Second => negb first end in
      option_map (fun r => (if keep then l else []) ++ r) (strip first p ls)
  end.
Definition strip_conflicts (first : bool) (s : list Z) : option (list Z) := strip first Common (text_lines s).

(** the two tuples of every Change have items *)
Definition sides_present (d : list oitem) : Prop :=
  Forall (fun i => match i with OStr _ => True | OChange a b => a <> [] /\ b <> [] end) d.
