(** What the output of gaspra-diff and gaspra-merge looks like, in terms of the units (lines,
    words or characters) of the texts in the files. *)
From Coq Require Import String.
From Verif Require Import Base Changesets SpecDiff Lines SpecLines Markup SpecMarkup Rich SpecConsole SpecMarks Tokenizers
  CommandLine SpecCommandLine.
Local Open Scope Z_scope.
Local Open Scope list_scope.

(** the units a command line asks for *)
Inductive unit_asked (l : list item) : tkind -> Prop :=
| ask_words : In (Flag FWords) l -> unit_asked l KSymbol
| ask_lines : In (Flag FLines) l -> unit_asked l KLine
| ask_characters : without l FWords -> without l FLines -> unit_asked l KChar.

(** the pieces of a diff of units as texts *)
Definition joined (d : list (ditem (list Z))) : list (ditem Z) :=
  map (fun i => match i with DText t => DText (concat t) | DChange a b => DChange (concat a) (concat b) end) d.

(** * Files *)
(** a text between tags *)
Definition between (tag : string) (s : list Z) : list Z := str "[" ++ str tag ++ str "]" ++ s ++ str "[/]".
(** nothing where there is no text *)
Definition tagged (tag : string) (s : list Z) : list Z := match s with [] => [] | _ :: _ => between tag s end.
Definition flat_text (d : list (ditem Z)) : list Z :=
  flat_map (fun i => match i with DText t => t | DChange a b => tagged "green4" a ++ tagged "dark_red" b end) d.
Definition line_text (d : list oitem) : list Z :=
  flat_map (fun i => match i with
    | OStr s => s
    | OChange a b => between "green4" (side_text a) ++ between "dark_red" (side_text b)
    end) d.
(** the name of a branch above its diff *)
Definition heading (n : list Z) : list Z :=
  match n with [] => [] | _ :: _ => [10] ++ str "<<<[bright_blue]" ++ n ++ str "[/]>>>" ++ [10] end.
Definition git_heading (n : list Z) : list Z := match n with [] => [] | _ :: _ => [10] ++ n end.

(** a line diff of these pieces: the same characters marked in the same way, perhaps a newline
    at the end, and no unchanged line inside a Change *)
Definition lined (space : Z -> bool) (D : list (ditem Z)) (d : list oitem) : Prop :=
  exists R, shown d R /\ expand R = expand D ++ marked Same (last_newline (diff_after D) (diff_before D)) /\
    Forall (busy_item space) d /\ Forall whole_item d /\ no_change_twice d.
(** at least whole lines and the same two texts, and a Change only if there is one *)
Definition lined_roughly (D : list (ditem Z)) (d : list oitem) : Prop :=
  Forall whole_item d /\ no_change_twice d /\
  ((exists a b, In (OChange a b) d) <-> exists a b, In (DChange a b) D) /\
  exists tail, (tail = [] \/ tail = [10]) /\
    (alternating (visible D) -> tail = last_newline (diff_after D) (diff_before D)) /\
    into_text d = diff_after D ++ tail /\ from_text d = diff_before D ++ tail.

(** a merge of lines can have a Change of the empty last line against no line *)
Definition merge_lined (space : Z -> bool) (l : list item) (D : list (ditem Z)) (d : list oitem) : Prop :=
  lined_roughly D d /\ (without l FLines -> lined space D d).

(** how the pieces [D] are written to a file by a program with these options; [n0] and [n1] are
    the names of the two sides, [line] says what the line diffs are like *)
Definition written_as (l : list item) (line : list (ditem Z) -> list oitem -> Prop) (n0 n1 : list Z)
    (D : list (ditem Z)) (text : list Z) : Prop :=
  (without l FShowLines -> without l FGit -> text = flat_text D) /\
  (In (Flag FShowLines) l -> without l FGit -> exists d, line D d /\ text = line_text d) /\
  (In (Flag FGit) l -> exists d, line D d /\ text = git_text n0 n1 d).
Definition headed (l : list item) (n text text' : list Z) : Prop :=
  (without l FGit -> text' = heading n ++ text) /\ (In (Flag FGit) l -> text' = git_heading n ++ text).

(** * The console *)
(** a name without brackets, backslashes, colons and control characters *)
Definition simple_name (n : list Z) : Prop := ~ In 91 n /\ ~ In 92 n /\ ~ In 58 n /\ no_control n.
Section Console.
Variable normalize : list Z -> list Z.
Definition colour (s : string) : list Z := normalize (str s).
Definition flat_cells (d : list (ditem Z)) : list cell :=
  flat_map (fun i => match i with DText t => put t [] | DChange a b => put a [colour "green4"] ++ put b [colour "dark_red"] end) d.
Definition inner_cells (stack : list (list Z)) (l : list litem) : list cell :=
  flat_map (fun i => match i with
    | LStr s => put s stack
    | LChange a b => put a (colour "light_green" :: stack) ++ put b (colour "pink1" :: stack)
    end) l.
Definition line_cells (d : list oitem) : list cell :=
  flat_map (fun i => match i with
    | OStr s => put s []
    | OChange a b => inner_cells [colour "green4"] a ++ inner_cells [colour "dark_red"] b
    end) d.
Definition git_cells (n0 n1 : list Z) (d : list oitem) : list cell :=
  flat_map (fun i => match i with
    | OStr s => put s []
    | OChange a b => put (str "<<<<<<< " ++ n0 ++ [10]) [] ++ inner_cells [] a ++ put (str "=======" ++ [10]) [] ++
                     inner_cells [] b ++ put (str ">>>>>>> " ++ n1 ++ [10]) []
    end) d.
Definition shown_as (l : list item) (line : list (ditem Z) -> list oitem -> Prop) (n0 n1 : list Z)
    (D : list (ditem Z)) (cells : list cell) : Prop :=
  (without l FShowLines -> without l FGit -> cells = flat_cells D) /\
  (In (Flag FShowLines) l -> without l FGit -> exists d, line D d /\ cells = line_cells d) /\
  (In (Flag FGit) l -> exists d, line D d /\ cells = git_cells n0 n1 d).
Definition heading_cells (n : list Z) : list cell :=
  match n with [] => [] | _ :: _ => put ([10] ++ str "<<<") [] ++ put n [colour "bright_blue"] ++ put (str ">>>" ++ [10]) [] end.
Definition git_heading_cells (n : list Z) : list cell := match n with [] => [] | _ :: _ => put ([10] ++ n) [] end.
Definition headed_cells (l : list item) (n : list Z) (cells cells' : list cell) : Prop :=
  (without l FGit -> cells' = heading_cells n ++ cells) /\ (In (Flag FGit) l -> cells' = git_heading_cells n ++ cells).
End Console.
