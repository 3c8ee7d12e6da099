(** What a command line says: an independent description of the ways to write the options and
    operands of gaspra-diff, gaspra-merge and gaspra-torture. *)
From Coq Require Import String.
From Verif Require Import Base Markup Files SpecFiles CommandLine.
Local Open Scope Z_scope.
Local Open Scope list_scope.

Inductive item := Operand (s : list Z) | Flag (f : flag) | Output (s : list Z).

(** the letter and the name of an option *)
Definition letter (f : flag) : Z :=
  match f with FCharacters => 99 | FWords => 119 | FLines => 108 | FShowLines => 76 | FGit => 103 | FStrikeout => 115 | FDiff => 100 end.
Definition name (f : flag) : list Z :=
  match f with
  | FCharacters => str "characters" | FWords => str "words" | FLines => str "lines" | FShowLines => str "show-lines"
  | FGit => str "git-compatible" | FStrikeout => str "strikeout" | FDiff => str "diff"
  end.
(** gaspra-diff has no -d *)
Definition has (c : command) (f : flag) : Prop := f = FDiff -> c_diff c = true.
Definition is_letter (c : command) (x : Z) : Prop := x = 104 \/ x = 111 \/ exists f, has c f /\ x = letter f.
Definition is_name (c : command) (n : list Z) : Prop := n = str "help" \/ n = str "output" \/ exists f, has c f /\ n = name f.
Definition prefix (p s : list Z) : Prop := exists r, s = p ++ r.
(** a beginning of this name and of no other one *)
Definition abbreviates (c : command) (p n : list Z) : Prop :=
  is_name c n /\ prefix p n /\ forall n', is_name c n' -> prefix p n' -> n' = n.

(** the characters \d cannot match *)
Definition digit_ok (digit : Z -> bool) : Prop := digit 46 = false /\ digit 10 = false.
(** a negative number such as -1, -.5 or -1.5, maybe with a newline at the end *)
Definition all_digits (digit : Z -> bool) (s : list Z) : Prop := s <> [] /\ Forall (fun c => digit c = true) s.
Definition number_like (digit : Z -> bool) (s : list Z) : Prop :=
  exists t, (s = 45 :: t \/ s = 45 :: t ++ [10]) /\
    (all_digits digit t \/ exists u v, t = u ++ 46 :: v /\ Forall (fun c => digit c = true) u /\ all_digits digit v).
(** an argument that is no option: it does not begin with a dash, or is only a dash, or looks
    like a number or has a space in it and does not begin like an option *)
Definition operand_like (digit : Z -> bool) (c : command) (s : list Z) : Prop :=
  s = [] \/ (exists x r, s = x :: r /\ x <> 45) \/ s = [45] \/
  (number_like digit s \/ In 32 s) /\
  ((exists x r, s = 45 :: x :: r /\ x <> 45 /\ ~ is_letter c x) \/
   (exists p r, s = 45 :: 45 :: p ++ r /\ ~ In 61 p /\ (r = [] \/ exists q, r = 61 :: q) /\
      forall n, is_name c n -> ~ prefix p n)).

(** one argument that says something by itself: letters of flags after a dash, with -o and its
    value maybe at the end; or a name or an abbreviation after two dashes *)
Inductive says (c : command) : list Z -> list item -> Prop :=
| says_letters fs : fs <> [] -> Forall (has c) fs -> says c (45 :: map letter fs) (map Flag fs)
| says_equals fs s : Forall (has c) fs -> says c (45 :: map letter fs ++ 111 :: 61 :: s) (map Flag fs ++ [Output s])
| says_joined fs x s : Forall (has c) fs -> x <> 61 ->
    says c (45 :: map letter fs ++ 111 :: x :: s) (map Flag fs ++ [Output (x :: s)])
| says_name f p : has c f -> abbreviates c p (name f) -> says c (45 :: 45 :: p) [Flag f]
| says_output p s : abbreviates c p (str "output") -> says c (45 :: 45 :: p ++ 61 :: s) [Output s].
(** one argument that asks for the name of the output file in the next one *)
Inductive opens (c : command) : list Z -> list item -> Prop :=
| opens_letters fs : Forall (has c) fs -> opens c (45 :: map letter fs ++ [111]) (map Flag fs)
| opens_name p : abbreviates c p (str "output") -> opens c (45 :: 45 :: p) [].
(** the whole command line; after -- there are only operands, and it may also come after the
    last operand, but not alone after an option *)
Inductive spelled (digit : Z -> bool) (c : command) : list (list Z) -> list item -> Prop :=
| spelled_nil : spelled digit c [] []
| spelled_operand s argv l : operand_like digit c s -> spelled digit c argv l -> spelled digit c (s :: argv) (Operand s :: l)
| spelled_says s argv k l : says c s k -> spelled digit c argv l -> spelled digit c (s :: argv) (k ++ l)
| spelled_opens s v argv k l : opens c s k -> operand_like digit c v -> spelled digit c argv l ->
    spelled digit c (s :: v :: argv) (k ++ Output v :: l)
| spelled_dashes argv : argv <> [] -> ~ In (str "--") argv -> spelled digit c (str "--" :: argv) (map Operand argv)
| spelled_end s : operand_like digit c s -> spelled digit c [s; str "--"] [Operand s].
(** there is at most one of the argument -- *)
Definition one_dashes (argv : list (list Z)) : Prop := forall pre post, argv = pre ++ str "--" :: post -> ~ In (str "--") post.

(** the meaning of what was said *)
Definition operands_of (l : list item) : list (list Z) := flat_map (fun i => match i with Operand s => [s] | _ => [] end) l.
Definition flags_of (l : list item) : list flag := flat_map (fun i => match i with Flag f => [f] | _ => [] end) l.
Definition outputs_of (l : list item) : list (list Z) := flat_map (fun i => match i with Output s => [s] | _ => [] end) l.
(** the last one counts *)
Definition last_output (l : list item) : option (list Z) := match rev (outputs_of l) with s :: _ => Some s | [] => None end.
(** at most one of -c, -w, -l *)
Definition compatible (fs : list flag) : Prop :=
  forall f g, In f fs -> In g fs -> In f [FCharacters; FWords; FLines] -> In g [FCharacters; FWords; FLines] -> f = g.
(** the same items in another order or spelling *)
Definition same_meaning (l l' : list item) : Prop :=
  operands_of l = operands_of l' /\ last_output l = last_output l' /\ forall f, In (Flag f) l <-> In (Flag f) l'.
(** an option that was not given *)
Definition without (l : list item) (f : flag) : Prop := ~ In (Flag f) l.
(** at most the output file named last is not what it was *)
Definition touches_only (digit : Z -> bool) (argv : list (list Z)) (c : command) (fs fs' : files) : Prop :=
  fs' = fs \/ exists l out, spelled digit c argv l /\ last_output l = Some out /\ out <> [] /\ same_but out fs fs'.
(** the options a reading of the command line asks for *)
Definition asks (l : list item) (o : options) : Prop :=
  (o_output o = true <-> last_output l <> None) /\
  (o_words o = true <-> In (Flag FWords) l) /\ (o_lines o = true <-> In (Flag FLines) l) /\
  (o_show_lines o = true <-> In (Flag FShowLines) l) /\ (o_git o = true <-> In (Flag FGit) l) /\
  (o_strikeout o = true <-> In (Flag FStrikeout) l) /\ (o_diff o = true <-> In (Flag FDiff) l).
