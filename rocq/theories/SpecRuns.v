(** gaspra-merge run once for each of several copies of a file (C136). *)
From Coq Require Import ZArith.
From Verif Require Import Base Tokenizers Markup SpecMarkup Files SpecFiles CommandLine SpecCommandLine SpecPrograms.

(** the command line asks to merge the file [from] into the file [out], which is
    replaced: -o out parent from out, in some spelling, with the units of [o] and without
    anything that adds to the text *)
Definition merges_into (digit : Z -> bool) (o : options) (parent out from : list Z) (argv : list (list Z)) : Prop :=
  exists l, spelled digit merge_command argv l /\ operands_of l = [parent; from; out] /\ SpecCommandLine.compatible (flags_of l) /\
    last_output l = Some out /\ without l FStrikeout /\ without l FDiff /\ without l FShowLines /\ without l FGit /\
    unit_asked l (tokenizer_of o).
(** the programs run one after the other; each has to end without printing or raising
    anything *)
Fixpoint run_each (program : list (list Z) -> files -> files * outcome) (fs : files) (lines : list (list (list Z))) : option files :=
  match lines with
  | [] => Some fs
  | argv :: lines => match program argv fs with
                     | (fs', Ran [] None) => run_each program fs' lines
                     | _ => None
                     end
  end.
(** what a program reads from a file *)
Definition text_of (fs : files) (name : list Z) : list Z :=
  match dget fs name with Some b => read_text b | None => [] end.
