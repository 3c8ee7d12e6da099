(** Proofs for C137: taking a branch out of a file again with gaspra-merge. *)
From Coq Require Import ZArith.
From Verif Require Import Base Changesets SpecDiff Merge Tokenizers SpecTokenizers Markup SpecMarkup SpecTokens SpecSquare SquareUnits
  Files SpecFiles FilesProofs CommandLine SpecCommandLine SpecPrograms SpecRuns RunsProofs.

Section Undo.
Variable linesep : list Z.
Variables re_w space digit sp : Z -> bool.
Variable emoji : list Z -> option (list Z).
Variable normalize : list Z -> list Z.
Hypothesis DO : digit_ok digit.
Hypothesis SEP : a_linesep linesep.
Notation merge_program := (gaspra_merge linesep re_w space digit sp emoji normalize).

Theorem merge_undone o fs old branch out do_it undo bn bs bf l : real_files fs ->
  merges_into digit o old out branch do_it -> merges_into digit o branch out old undo ->
  plain_name old -> plain_name branch -> plain_name out -> out <> [] -> old <> out -> branch <> out ->
  dget fs old = Some bn -> dget fs branch = Some bs -> dget fs out = Some bf -> separate l ->
  units re_w (tokenizer_of o) (CStr (read_text bn)) (neither l) -> units re_w (tokenizer_of o) (CStr (read_text bf)) (by_first l) ->
  units re_w (tokenizer_of o) (CStr (read_text bs)) (by_second l) ->
  exists fs1 b1 fs2 b2, merge_program do_it fs = (fs1, Ran [] None) /\ same_but out fs fs1 /\
    dget fs1 out = Some b1 /\ read_text b1 = concat (by_both l) /\
    merge_program undo fs1 = (fs2, Ran [] None) /\ same_but out fs fs2 /\
    dget fs2 out = Some b2 /\ read_text b2 = read_text bf.
Proof.
  intros RF M1 M2 P1 P2 P3 NE N1 N2 G1 G2 G3 S Un Uf Us.
  destruct (read_all fs old bn RF G1) as (_ & Rn & _). destruct (read_all fs branch bs RF G2) as (_ & Rs & _).
  destruct (read_all fs out bf RF G3) as (_ & Rf & _).
  destruct (square_files re_w o _ _ _ l Rn Rf Rs S Un Uf Us) as (H1 & _ & _ & _ & H2 & _).
  destruct (one_run linesep re_w space digit sp emoji normalize DO SEP o fs old out branch do_it bn bs bf _ RF M1 P1 P2 P3 NE G1 G2 G3 H1)
    as (fs1 & b1 & Run1 & RF1 & SB1 & GB1 & E1).
  rewrite <- E1 in H2.
  destruct (one_run linesep re_w space digit sp emoji normalize DO SEP o fs1 branch out old undo bs bn b1 (read_text bf) RF1 M2 P2 P1 P3 NE) as (fs2 & b2 & Run2 & _ & SB2 & GB2 & E2).
  - now rewrite (SB1 branch N2).
  - now rewrite (SB1 old N1).
  - exact GB1.
  - exact H2.
  - exists fs1, b1, fs2, b2. repeat (split; [assumption|]). split; [|now split].
    intros n H. rewrite (SB2 n H). now apply SB1.
Qed.
End Undo.
