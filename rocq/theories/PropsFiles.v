(** C69 and C70: gaspra-diff and gaspra-merge with --output, as functions on files.
    [linesep] is os.linesep; [re_w] and [space] stand for the regular expression class and
    for isspace. *)
From Coq Require Import String Lia.
From Verif Require Import Base Tokenizers SpecTokenizers Lines Markup SpecMarkup Files SpecFiles FilesProofs.
Local Open Scope Z_scope.
Local Open Scope list_scope.

(** C69: any file can be read; the text has no carriage return and no surrogate. *)
Theorem C69_every_file_reads : forall fs names, real_files fs -> Forall (fun n => dmem fs n = true) names ->
  exists ts, get_text fs names = Ok ts /\ length ts = length names /\
    Forall (fun t => Forall scalar_value t /\ ~ In 13 t) ts.
Proof. exact every_file_reads. Qed.
(** C69: get_bytes gives the bytes of the files as they are, which get_text decodes; a
    missing file is an OSError. *)
Theorem C69_bytes : forall fs names, Forall (fun n => dmem fs n = true) names ->
  exists bs, get_bytes fs names = Ok bs /\ Forall2 (fun n b => dget fs n = Some b) names bs /\
    get_text fs names = Ok (map read_text bs).
Proof. exact bytes_read. Qed.
Theorem C69_bytes_missing : forall fs names n, In n names -> dget fs n = None -> get_bytes fs names = Err OSError.
Proof. exact bytes_missing. Qed.
(** C69: the command succeeds, changes no other file, and the file it writes reads back as
    what was written. *)
Theorem C69_diff_file : forall linesep, a_linesep linesep -> forall re_w space fs o n1 n2 b1 b2 out,
  real_files fs -> plain_name n1 -> plain_name n2 -> o_strikeout o = false ->
  dget fs n1 = Some b1 -> dget fs n2 = Some b2 ->
  exists fs' b chunks, diff_files linesep re_w space fs o n1 n2 out = (fs', None) /\
    snd (diff_cli re_w space (with_output o) (read_text b1) (read_text b2) (basename n1) (basename n2) initial_styles)
      = (chunks, None) /\
    same_but out fs fs' /\ dget fs' out = Some b /\ read_text b = concat chunks.
Proof. exact diff_files_written. Qed.
Theorem C69_merge_file : forall linesep, a_linesep linesep -> forall re_w space fs o n1 n2 n3 b1 b2 b3 out,
  real_files fs -> plain_name n1 -> plain_name n2 -> plain_name n3 -> o_strikeout o = false ->
  dget fs n1 = Some b1 -> dget fs n2 = Some b2 -> dget fs n3 = Some b3 ->
  exists fs' b chunks, merge_files linesep re_w space fs o n1 n2 n3 out = (fs', None) /\
    snd (merge_cli re_w space (with_output o) (read_text b1) (read_text b2) (read_text b3)
           (basename n1) (basename n2) (basename n3) initial_styles) = (chunks, None) /\
    same_but out fs fs' /\ dget fs' out = Some b /\ read_text b = concat chunks.
Proof. exact merge_files_written. Qed.
(** C69: a merge without conflicts reads back as the merged text; with an unchanged branch
    as the other branch.  The output file may be one of the inputs. *)
Theorem C69_clean_merge_file : forall linesep, a_linesep linesep -> forall re_w space fs o n1 n2 n3 b1 b2 b3 out m,
  real_files fs -> plain_name n1 -> plain_name n2 -> plain_name n3 ->
  o_strikeout o = false -> o_diff o = false -> o_show_lines o = false -> o_git o = false ->
  dget fs n1 = Some b1 -> dget fs n2 = Some b2 -> dget fs n3 = Some b3 ->
  merge_result re_w o (read_text b1) (read_text b2) (read_text b3) = Ok m -> Forall (fun i => exists s, i = TText s) m ->
  exists fs' b, merge_files linesep re_w space fs o n1 n2 n3 out = (fs', None) /\
    same_but out fs fs' /\ dget fs' out = Some b /\ read_text b = text_after m.
Proof. exact merge_files_clean. Qed.
Theorem C69_unchanged_branch_file : forall linesep, a_linesep linesep -> forall re_w space fs o n1 n2 n3 b1 b2 b3 out,
  real_files fs -> plain_name n1 -> plain_name n2 -> plain_name n3 ->
  o_strikeout o = false -> o_diff o = false -> o_show_lines o = false -> o_git o = false ->
  dget fs n1 = Some b1 -> dget fs n2 = Some b2 -> dget fs n3 = Some b3 ->
  exists fs' b, merge_files linesep re_w space fs o n1 n2 n3 out = (fs', None) /\
    same_but out fs fs' /\ dget fs' out = Some b /\
    (read_text b2 = read_text b1 -> read_text b = read_text b3) /\
    (read_text b3 = read_text b1 \/ read_text b3 = read_text b2 -> read_text b = read_text b2).
Proof. exact merge_files_one. Qed.
(** C69: without one of the input files nothing is written. *)
Theorem C69_missing_file : forall linesep re_w space fs o n1 n2 n3 out,
  (dget fs n1 = None \/ dget fs n2 = None -> diff_files linesep re_w space fs o n1 n2 out = (fs, Some OSError)) /\
  (dget fs n1 = None \/ dget fs n2 = None \/ dget fs n3 = None ->
   merge_files linesep re_w space fs o n1 n2 n3 out = (fs, Some OSError)).
Proof. exact missing_files. Qed.
(** C69: the name shown for a file is what follows the last "/" of its path. *)
Theorem C69_basename : forall n, ~ In 47 (basename n) /\
  exists d, n = d ++ basename n /\ (d = [] \/ exists e, d = e ++ [47]).
Proof. exact basename_ok. Qed.
(** C69: with any options and names, the file holds what was written before the first
    chunk that cannot be encoded, and no exception is lost. *)
Theorem C69_diff_exceptions : forall linesep, a_linesep linesep -> forall re_w space fs o n1 n2 b1 b2 out chunks x,
  dget fs n1 = Some b1 -> dget fs n2 = Some b2 ->
  snd (diff_cli re_w space (with_output o) (read_text b1) (read_text b2) (basename n1) (basename n2) initial_styles)
    = (chunks, x) ->
  exists fs' b y, diff_files linesep re_w space fs o n1 n2 out = (fs', y) /\
    same_but out fs fs' /\ dget fs' out = Some b /\ written linesep chunks x b y.
Proof. exact diff_exceptions. Qed.
Theorem C69_merge_exceptions : forall linesep, a_linesep linesep -> forall re_w space fs o n1 n2 n3 b1 b2 b3 out chunks x,
  dget fs n1 = Some b1 -> dget fs n2 = Some b2 -> dget fs n3 = Some b3 ->
  snd (merge_cli re_w space (with_output o) (read_text b1) (read_text b2) (read_text b3)
         (basename n1) (basename n2) (basename n3) initial_styles) = (chunks, x) ->
  exists fs' b y, merge_files linesep re_w space fs o n1 n2 n3 out = (fs', y) /\
    same_but out fs fs' /\ dget fs' out = Some b /\ written linesep chunks x b y.
Proof. exact merge_exceptions. Qed.

(** C70: merging with an unchanged branch need not give the bytes of the other file, and
    different files can have no difference, even where os.linesep is a newline. *)
Theorem C70_bytes_refuted : exists fs o n1 n2 n3 b1 b3 out fs' b,
  real_files fs /\ plain_name n1 /\ plain_name n2 /\ plain_name n3 /\
  o_strikeout o = false /\ o_diff o = false /\ o_show_lines o = false /\ o_git o = false /\
  dget fs n1 = Some b1 /\ dget fs n2 = Some b1 /\ dget fs n3 = Some b3 /\ is_utf8 b3 /\
  merge_files [10] (fun _ => false) (fun _ => false) fs o n1 n2 n3 out = (fs', None) /\
  dget fs' out = Some b /\ b <> b3.
Proof. exact crlf_lost. Qed.
Theorem C70_encoding_refuted : exists fs o n1 n2 n3 b1 b3 out fs' b,
  real_files fs /\ plain_name n1 /\ plain_name n2 /\ plain_name n3 /\
  o_strikeout o = false /\ o_diff o = false /\ o_show_lines o = false /\ o_git o = false /\
  dget fs n1 = Some b1 /\ dget fs n2 = Some b1 /\ dget fs n3 = Some b3 /\ ~ In 13 b3 /\
  merge_files [10] (fun _ => false) (fun _ => false) fs o n1 n2 n3 out = (fs', None) /\
  dget fs' out = Some b /\ b <> b3.
Proof. exact latin1_lost. Qed.
Theorem C70_same_text_refuted : exists b b', Forall (fun x => 0 <= x < 256) b /\ Forall (fun x => 0 <= x < 256) b' /\
  ~ In 13 b /\ ~ In 13 b' /\ read_text b = read_text b' /\ b <> b'.
Proof. exact same_text. Qed.
(** C70 for the files that are UTF-8 without a carriage return. *)
Theorem C70_bytes_partial : forall re_w space fs o n1 n2 n3 b1 b2 b3 out,
  real_files fs -> plain_name n1 -> plain_name n2 -> plain_name n3 ->
  o_strikeout o = false -> o_diff o = false -> o_show_lines o = false -> o_git o = false ->
  dget fs n1 = Some b1 -> dget fs n2 = Some b2 -> dget fs n3 = Some b3 ->
  b2 = b1 -> is_utf8 b3 -> ~ In 13 b3 ->
  exists fs', merge_files [10] re_w space fs o n1 n2 n3 out = (fs', None) /\ dget fs' out = Some b3.
Proof. exact merge_files_bytes. Qed.
(** More exactly: it gives the bytes of the other file if and only if these are the UTF-8 of
    a text with the line ends of the platform. *)
Theorem C70_bytes_exactly_partial : forall linesep re_w space fs o n1 n2 n3 b1 b2 b3 out, a_linesep linesep ->
  real_files fs -> plain_name n1 -> plain_name n2 -> plain_name n3 ->
  o_strikeout o = false -> o_diff o = false -> o_show_lines o = false -> o_git o = false ->
  dget fs n1 = Some b1 -> dget fs n2 = Some b2 -> dget fs n3 = Some b3 ->
  exists fs' b, merge_files linesep re_w space fs o n1 n2 n3 out = (fs', None) /\ dget fs' out = Some b /\
    (read_text b2 = read_text b1 -> (b = b3 <-> platform_text linesep b3)) /\
    (read_text b3 = read_text b1 \/ read_text b3 = read_text b2 -> (b = b2 <-> platform_text linesep b2)).
Proof. exact merge_files_copies. Qed.
Theorem C70_same_text_partial : forall b b', is_utf8 b -> is_utf8 b' -> ~ In 13 b -> ~ In 13 b' ->
  read_text b = read_text b' -> b = b'.
Proof. exact same_bytes. Qed.

Print Assumptions C69_every_file_reads.
Print Assumptions C69_bytes.
Print Assumptions C69_bytes_missing.
Print Assumptions C69_diff_file.
Print Assumptions C69_merge_file.
Print Assumptions C69_clean_merge_file.
Print Assumptions C69_unchanged_branch_file.
Print Assumptions C69_missing_file.
Print Assumptions C69_basename.
Print Assumptions C69_diff_exceptions.
Print Assumptions C69_merge_exceptions.
Print Assumptions C70_bytes_refuted.
Print Assumptions C70_encoding_refuted.
Print Assumptions C70_same_text_refuted.
Print Assumptions C70_bytes_partial.
Print Assumptions C70_bytes_exactly_partial.
Print Assumptions C70_same_text_partial.

(** Concrete cases: a merge into one of its own inputs, of files with different encodings
    and line ends; and a file name that cannot be written. *)
Definition the_files : files :=
  [(str "p", str "a" ++ [13; 10] ++ str "b" ++ [13; 10]);
   (str "d/c", str "x" ++ [10] ++ str "b" ++ [10]);
   (str "t", str "a" ++ [13; 10; 233; 13; 10])].
Definition plain_options : options := mkOptions true false true false false false false.
Definition git_options : options := mkOptions true false true false true false false.
Example C69_example : real_files the_files /\ plain_name (str "p") /\
  merge_files [13; 10] (fun _ => false) (fun _ => false) the_files plain_options (str "p") (str "d/c") (str "t") (str "d/c")
  = (dset the_files (str "d/c") (str "x" ++ [13; 10; 195; 169; 13; 10]), None).
Proof.
  split; [apply real_files_check; vm_compute; reflexivity|]. split; [apply plain_check; vm_compute; reflexivity|].
  vm_compute. reflexivity.
Qed.
Example C69_git_example :
  diff_files [10] (fun _ => false) (fun c => c =? 10) the_files git_options (str "p") (str "d/c") (str "new")
  = (the_files ++ [(str "new", str "<<<<<<< c" ++ [10] ++ str "x" ++ [10] ++ str "=======" ++ [10] ++ str "a" ++ [10] ++
                               str ">>>>>>> p" ++ [10] ++ str "b" ++ [10])], None).
Proof. vm_compute. reflexivity. Qed.
Example C69_name_example :
  diff_files [10] (fun _ => false) (fun c => c =? 10) ((str "q", str "z") :: ([56576], str "y") :: nil) git_options
    (str "q") [56576] (str "new")
  = ([(str "q", str "z"); ([56576], str "y"); (str "new", [])], Some ValueError).
Proof. vm_compute. reflexivity. Qed.
Example C69_basename_example : basename (str "a/b/c.txt") = str "c.txt" /\ basename (str "c") = str "c" /\ basename (str "a/") = [].
Proof. repeat split; reflexivity. Qed.
Definition strike_options : options := mkOptions true false true false false true false.
Example C69_exception_example :
  diff_files [10] (fun _ => false) (fun c => c =? 10) the_files strike_options (str "t") (str "p") (str "new")
  = (the_files ++ [(str "new", str "a" ++ [10] ++ str "[green4]b" ++ [10] ++ str "[/]")], Some TypeError).
Proof. vm_compute. reflexivity. Qed.
Example C69_bytes_example :
  get_bytes the_files [str "t"; str "p"] = Ok [str "a" ++ [13; 10; 233; 13; 10]; str "a" ++ [13; 10] ++ str "b" ++ [13; 10]] /\
  get_bytes the_files [str "t"; str "q"] = Err OSError.
Proof. vm_compute. split; reflexivity. Qed.
Example C69_missing_example : dget the_files (str "q") = None.
Proof. reflexivity. Qed.
Example C70_example : is_utf8 (str "a" ++ [10; 195; 169; 10]).
Proof.
  exists [97; 10; 233; 10]. split; [|reflexivity].
  apply Forall_cons; [unfold scalar_value; lia|]. apply Forall_cons; [unfold scalar_value; lia|].
  apply Forall_cons; [unfold scalar_value; lia|]. apply Forall_cons; [unfold scalar_value; lia|]. apply Forall_nil.
Qed.
(** with the line ends of Windows; the same file is no such text elsewhere *)
Example C70_exactly_example : platform_text [13; 10] (str "a" ++ [13; 10; 195; 169]) /\ ~ platform_text [10] (str "a" ++ [13; 10; 195; 169]).
Proof.
  split.
  - exists [97; 10; 233]. split; [|split; [|reflexivity]].
    + apply Forall_cons; [unfold scalar_value; lia|]. apply Forall_cons; [unfold scalar_value; lia|]. apply Forall_cons; [unfold scalar_value; lia|]. apply Forall_nil.
    + cbn. intros [Q|[Q|[Q|[]]]]; lia.
  - intros (t & F & N & Q). assert (I : In 13 (str "a" ++ [13; 10; 195; 169])) by (cbn; auto).
    rewrite Q in I. fold (translate [10] t) in I. rewrite unix_translate in I. apply in_flat_map in I as (c & I & J).
    rewrite Forall_forall in F. specialize (F c I). unfold utf8_char in J. unfold scalar_value in F. assert (P : 0 <= c) by lia.
    destruct (c <? 128) eqn:C1; [destruct J as [->|[]]; contradiction|].
    destruct (c <? 2048) eqn:C2; [|destruct (c <? 65536) eqn:C3]; cbn [In] in J;
      repeat (destruct J as [J|J]; [pose proof (Z.mod_pos_bound (c / 4096) 64 eq_refl); pose proof (Z.mod_pos_bound (c / 64) 64 eq_refl); pose proof (Z.mod_pos_bound c 64 eq_refl);
        pose proof (Z.div_pos c 64 P eq_refl); pose proof (Z.div_pos c 4096 P eq_refl); pose proof (Z.div_pos c 262144 P eq_refl); lia|]); contradiction.
Qed.
