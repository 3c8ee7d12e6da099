(** Model of the command lines of gaspra-diff, gaspra-merge and gaspra-torture:
    /repo/src/gaspra/merge_tool.py:31-118 (the arguments), 172-188 and 252-277 (the programs),
    and torture_test.get_filenames.

    The argument parser is argparse of the standard library; its source is not part of
    /repo.  The model follows CPython 3.12 (_parse_known_args, _parse_optional,
    _get_option_tuples, consume_optional).  Simplifications: every operand of these programs
    takes exactly one argument, so the model reads the arguments from left to right instead of
    in runs; a second "--" is an operand like any other argument after the first, while argparse
    drops it depending on where it is (the theorems leave it out); usage and error messages are
    not modelled, only the exit status. *)
From Coq Require Import String.
From Verif Require Import Base Changesets Tokenizers Lines Markup Rich Files.
Local Open Scope Z_scope.
Local Open Scope list_scope.

(** merge_tool.py:31-78, add_common_arguments, and 88-90, 113-115: the options without a value *)
Inductive flag := FCharacters | FWords | FLines | FShowLines | FGit | FStrikeout | FDiff.
Definition flag_num (f : flag) : nat :=
  match f with FCharacters => 0 | FWords => 1 | FLines => 2 | FShowLines => 3 | FGit => 4 | FStrikeout => 5 | FDiff => 6 end.
Definition flag_eqb (f g : flag) : bool := Nat.eqb (flag_num f) (flag_num g).
(** the actions of the parser; argparse adds -h *)
Inductive action := AHelp | AOutput | AFlag (f : flag).
(** the number of operands, and whether there is -d *)
Record command := mkCommand { c_operands : nat; c_diff : bool }.
(** merge_tool.py:81-94, get_merge_arguments; 97-105, get_diff_arguments; 108-118,
    get_torture_test_arguments *)
Definition merge_command : command := mkCommand 3 true.
Definition diff_command : command := mkCommand 2 false.
Definition torture_command : command := mkCommand 1 true.

(** 31-94: the option strings in the order of their definition (_option_string_actions) *)
Definition option_strings (c : command) : dict (list Z) action :=
  [(str "-h", AHelp); (str "--help", AHelp);
   (str "-o", AOutput); (str "--output", AOutput);
   (str "-c", AFlag FCharacters); (str "--characters", AFlag FCharacters);
   (str "-w", AFlag FWords); (str "--words", AFlag FWords);
   (str "-l", AFlag FLines); (str "--lines", AFlag FLines);
   (str "-L", AFlag FShowLines); (str "--show-lines", AFlag FShowLines);
   (str "-g", AFlag FGit); (str "--git-compatible", AFlag FGit);
   (str "-s", AFlag FStrikeout); (str "--strikeout", AFlag FStrikeout)] ++
  (if c_diff c then [(str "-d", AFlag FDiff); (str "--diff", AFlag FDiff)] else []).
(** 38, add_mutually_exclusive_group *)
Definition exclusive (f : flag) : bool := match f with FCharacters | FWords | FLines => true | _ => false end.

(** str.partition("=") when there is one *)
Fixpoint split_equals (s : list Z) : option (list Z * list Z) :=
  match s with
  | [] => None
  | c :: s => if c =? 61 then Some ([], s)
              else match split_equals s with Some (a, b) => Some (c :: a, b) | None => None end
  end.
Fixpoint starts_with (p s : list Z) : bool :=
  match p, s with
  | [], _ => true
  | x :: p, y :: s => (x =? y) && starts_with p s
  | _ :: _, [] => false
  end.
(** option_string[1] not in prefix_chars *)
Definition short (s : list Z) : bool := match s with _ :: c :: _ => negb (c =? 45) | _ => true end.

(** What an argument is: an operand; an option, whether it is a short one, and what follows
    it in the same argument, after an equals sign or directly; an unknown option; an
    abbreviation of more than one; or "--" *)
Inductive class :=
| CArgument
| COption (a : action) (is_short : bool) (explicit : option (bool * list Z))
| CUnknown
| CAmbiguous
| CDashes.

(** the namespace: operands in order, flags that were given, the output file; and whether
    there were arguments that could not be used *)
Record namespace := mkNs { n_operands : list (list Z); n_flags : list flag; n_output : option (list Z); n_extras : bool }.
Definition empty_ns : namespace := mkNs [] [] None false.
(** parse_args returns, or raises SystemExit: 0 after the help, 2 after an error *)
Inductive parsed := Parsed (n : namespace) | Exit (status : Z).

Section CommandLine.
(** what \d matches *)
Variable digit : Z -> bool.
(** _negative_number_matcher: ^-\d+$|^-\d*\.\d+$ ; the dollar also matches before a newline
    at the end *)
Definition chomp (s : list Z) : list Z := match rev s with c :: r => if c =? 10 then rev r else s | [] => s end.
Definition digits (s : list Z) : bool := nonempty s && forallb digit s.
Fixpoint decimal (s : list Z) : bool :=
  match s with
  | [] => false
  | c :: s => if c =? 46 then digits s else digit c && decimal s
  end.
Definition negative_number (s : list Z) : bool :=
  match chomp s with c :: r => (c =? 45) && (digits r || decimal r) | [] => false end.

Variable cmd : command.
(** _get_option_tuples, for an argument of at least two characters that begins with a dash *)
Definition option_tuples (s : list Z) : list class :=
  if short s then
    flat_map (fun e => if teq (fst e) (firstn 2 s) then [COption (snd e) true (Some (false, skipn 2 s))]
                       else if starts_with s (fst e) then [COption (snd e) (short (fst e)) None] else []) (option_strings cmd)
  else
    let '(prefix, x) := match split_equals s with Some (p, x) => (p, Some (true, x)) | None => (s, None) end in
    flat_map (fun e => if starts_with prefix (fst e) then [COption (snd e) (short (fst e)) x] else []) (option_strings cmd).
(** _parse_optional *)
Definition classify_unknown (s : list Z) : class :=
  match option_tuples s with
  | [] => if negative_number s || existsb (Z.eqb 32) s then CArgument else CUnknown
  | [t] => t
  | _ => CAmbiguous
  end.
Definition classify (s : list Z) : class :=
  match s with
  | [] => CArgument
  | c :: r =>
    if negb (c =? 45) then CArgument
    else match dget (option_strings cmd) s with
         | Some a => COption a (short s) None
         | None =>
           match r with
           | [] => CArgument
           | _ =>
             match split_equals s with
             | Some (o, x) => match dget (option_strings cmd) o with
                              | Some a => COption a (short o) (Some (true, x))
                              | None => classify_unknown s
                              end
             | None => classify_unknown s
             end
           end
         end
  end.

(** consume_optional: the actions of one argument; it may need the next argument, or
    contain letters that are no option *)
Inductive ending := EDone | EExtras | ENext.
Definition steps : Type := list (action * list Z).
(** the letters after a short option that takes no value *)
Fixpoint letters (x : list Z) : option (steps * ending) :=
  match x with
  | [] => Some ([], EDone)
  | c :: r =>
    if c =? 45 then None
    else match dget (option_strings cmd) [45; c] with
         | None => Some ([], EExtras)
         | Some AOutput =>
           match r with
           | [] => Some ([], ENext)
           | d :: r' => Some ([(AOutput, if d =? 61 then r' else r)], EDone)
           end
         | Some a =>
           if starts_with [61] r then None
           else match letters r with Some (l, e) => Some ((a, []) :: l, e) | None => None end
         end
  end.
Definition consume_optional (a : action) (is_short : bool) (explicit : option (bool * list Z)) : option (steps * ending) :=
  match a, explicit with
  | AOutput, None => Some ([], ENext)
  | AOutput, Some (_, x) => Some ([(AOutput, x)], EDone)
  | a, None => Some ([(a, [])], EDone)
  | a, Some (equals, x) =>
    if is_short && negb equals && nonempty x then
      match letters x with Some (l, e) => Some ((a, []) :: l, e) | None => None end
    else None
  end.

(** take_action *)
Definition take_action (n : namespace) (s : action * list Z) : parsed :=
  match s with
  | (AHelp, _) => Exit 0
  | (AOutput, x) => Parsed (mkNs (n_operands n) (n_flags n) (Some x) (n_extras n))
  | (AFlag f, _) =>
    if exclusive f && existsb (fun g => exclusive g && negb (flag_eqb f g)) (n_flags n) then Exit 2
    else Parsed (mkNs (n_operands n) (n_flags n ++ [f]) (n_output n) (n_extras n))
  end.
Fixpoint take_actions (n : namespace) (l : steps) : parsed :=
  match l with
  | [] => Parsed n
  | s :: l => match take_action n s with Parsed n => take_actions n l | Exit z => Exit z end
  end.
Definition add_operand (n : namespace) (s : list Z) : namespace :=
  if (length (n_operands n) <? c_operands cmd)%nat
  then mkNs (n_operands n ++ [s]) (n_flags n) (n_output n) (n_extras n)
  else mkNs (n_operands n) (n_flags n) (n_output n) true.
Definition add_extra (n : namespace) : namespace := mkNs (n_operands n) (n_flags n) (n_output n) true.

(** the loop of _parse_known_args, and the checks at the end of it and of parse_args.  An
    operand is matched by -*A-*: the "--" is dropped with the operand before it ([run]: the
    argument before this one was an operand) or with the one after it; otherwise it is an
    argument that could not be used *)
Fixpoint arguments (run : bool) (l : list (list Z * class)) (n : namespace) : parsed :=
  match l with
  | [] => if (length (n_operands n) <? c_operands cmd)%nat || n_extras n then Exit 2 else Parsed n
  | (s, CArgument) :: l => arguments true l (add_operand n s)
  | (_, CDashes) :: l =>
    if run || nonempty l && (length (n_operands n) <? c_operands cmd)%nat then arguments true l n else arguments true l (add_extra n)
  | (_, CUnknown) :: l => arguments false l (add_extra n)
  | (_, CAmbiguous) :: _ => Exit 2
  | (_, COption a b x) :: l =>
    match consume_optional a b x with
    | None => Exit 2
    | Some (acts, EDone) => match take_actions n acts with Parsed n => arguments false l n | Exit z => Exit z end
    | Some (acts, EExtras) => match take_actions n acts with Parsed n => arguments false l (add_extra n) | Exit z => Exit z end
    | Some (acts, ENext) =>
      match l with
      | (v, CArgument) :: l =>
        match take_actions n (acts ++ [(AOutput, v)]) with Parsed n => arguments false l n | Exit z => Exit z end
      | _ => Exit 2
      end
    end
  end.
Definition is_ambiguous (c : class) : bool := match c with CAmbiguous => true | _ => false end.
(** the pattern of the arguments: after "--" there are only operands *)
Fixpoint classify_all (argv : list (list Z)) : list (list Z * class) :=
  match argv with
  | [] => []
  | s :: argv => if teq s (str "--") then (s, CDashes) :: map (fun s => (s, CArgument)) argv
                 else (s, classify s) :: classify_all argv
  end.
Definition parse_args (argv : list (list Z)) : parsed :=
  let l := classify_all argv in
  if existsb (fun e => is_ambiguous (snd e)) l then Exit 2 else arguments false l empty_ns.
End CommandLine.

(** * The programs *)
Definition flag_given (n : namespace) (f : flag) : bool := existsb (flag_eqb f) (n_flags n).
(** the truth value of [arguments.output] is what get_markup_style (145-161) asks for *)
Definition options_of (n : namespace) : options :=
  mkOptions (match n_output n with Some (_ :: _) => true | _ => false end)
    (flag_given n FWords) (flag_given n FLines) (flag_given n FShowLines) (flag_given n FGit)
    (flag_given n FStrikeout) (flag_given n FDiff).

(** What a program did: the exit status argparse chose; or what was shown on the console
    and None or the exception that ended it *)
Inductive outcome := Exited (status : Z) | Ran (shown : list cell) (x : option exn).

Section Programs.
Variable linesep : list Z.
Variables re_w space digit : Z -> bool.
Variable sp : Z -> bool.
Variable emoji : list Z -> option (list Z).
Variable normalize : list Z -> list Z.
Let console (out : output) : outcome := let '(cells, x) := on_console sp emoji normalize out in Ran cells x.

(** merge_tool.py:191-241, _merge.  There is no file with an empty name, so opening it
    fails (164-169; the files were read before). *)
Definition run_merge (fs : files) (n : namespace) (parent current other : list Z) : files * outcome :=
  match n_output n with
  | None =>
    match get_text fs [parent; current; other] with
    | Ok [p; c; t] => (fs, console (snd (merge_cli re_w space (options_of n) p c t
                                           (basename parent) (basename current) (basename other) initial_styles)))
    | Ok _ => (fs, Ran [] None)
    | Err e => (fs, Ran [] (Some e))
    end
  | Some [] => (fs, Ran [] (Some OSError))
  | Some out => let '(fs, x) := merge_files linesep re_w space fs (options_of n) parent current other out in (fs, Ran [] x)
  end.
(** 172-178, merge_cli *)
Definition gaspra_merge (argv : list (list Z)) (fs : files) : files * outcome :=
  match parse_args digit merge_command argv with
  | Exit z => (fs, Exited z)
  | Parsed n =>
    match n_operands n with
    | [parent; from_branch_head; into_branch_head] => run_merge fs n parent into_branch_head from_branch_head
    | _ => (fs, Ran [] None)                 (* there are three operands *)
    end
  end.
(** 252-277, diff_cli *)
Definition gaspra_diff (argv : list (list Z)) (fs : files) : files * outcome :=
  match parse_args digit diff_command argv with
  | Exit z => (fs, Exited z)
  | Parsed n =>
    match n_operands n, n_output n with
    | [original; modified], None =>
      match get_text fs [original; modified] with
      | Ok [a; b] => (fs, console (snd (diff_cli re_w space (options_of n) a b (basename original) (basename modified) initial_styles)))
      | Ok _ => (fs, Ran [] None)
      | Err e => (fs, Ran [] (Some e))
      end
    | [original; modified], Some [] => (fs, Ran [] (Some OSError))
    | [original; modified], Some out =>
      let '(fs, x) := diff_files linesep re_w space fs (options_of n) original modified out in (fs, Ran [] x)
    | _, _ => (fs, Ran [] None)              (* there are two operands *)
    end
  end.

(** torture_test.py:40-52, EXCEPTIONS *)
Definition EXCEPTIONS : dict (list Z) (list Z * list Z * list Z) :=
  [(str "chunks", (str "chunks_1_0.c", str "chunks_1_1.c", str "chunks_1_2.c"));
   (str "ReleaseNotes", (str "ReleaseNotes 9_4.html", str "ReleaseNotes 9_4_1.html", str "ReleaseNotes 9_4_2.html"));
   (str "Bug_ReporterApp", (str "Bug_ReporterApp_Parent.h", str "Bug_ReporterApp_BranchA.h", str "Bug_ReporterApp_BranchB.h"))].
(** torture_test.py:3-10, TEST_CASE_DIRECTORY: an absolute path that does not end in a slash
    (it is not the root) *)
Variable directory : list Z.
(** os.path.join of a directory and a name on POSIX *)
Definition join (name : list Z) : list Z := if starts_with [47] name then name else directory ++ [47] ++ name.
(** torture_test.py:55-66, get_filenames *)
Definition get_filenames (test_case : list Z) : list Z * list Z * list Z :=
  let '(parent, branch0, branch1) :=
    match dget EXCEPTIONS test_case with
    | Some t => t
    | None => (test_case ++ str ".parent", test_case ++ str ".1st", test_case ++ str ".2nd")
    end in
  (join parent, join branch0, join branch1).
(** merge_tool.py:181-188, torture_cli *)
Definition gaspra_torture (argv : list (list Z)) (fs : files) : files * outcome :=
  match parse_args digit torture_command argv with
  | Exit z => (fs, Exited z)
  | Parsed n =>
    match n_operands n with
    | [test_case] => let '(parent, current, other) := get_filenames test_case in run_merge fs n parent current other
    | _ => (fs, Ran [] None)                 (* there is one operand *)
    end
  end.
End Programs.
