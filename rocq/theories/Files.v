(** Model of the file handling of /repo/src/gaspra/merge_tool.py and markup.py: reading the
    files named on the command line, and writing to the file named by --output. *)
From Verif Require Import Base Tokenizers Lines Markup.
Local Open Scope Z_scope.

(** Readable regular files: names and bytes.  Directories, permissions, links (two names
    for one file) and files that change during the run are not modelled. *)
Definition files := dict (list Z) (list Z).

(** The newline handling of the builtin [open] in mode "rt" (newline=None). *)
Fixpoint universal_newlines (s : list Z) : list Z :=
  match s with
  | [] => []
  | c :: r =>
    if c =? 13 then
      10 :: match r with
            | d :: r' => if d =? 10 then universal_newlines r' else universal_newlines r
            | [] => []
            end
    else c :: universal_newlines r
  end.
(** merge_tool.py:280-291, get_text, for one file: utf-8, and iso-8859-1 (the code points
    are the bytes) when that raises UnicodeDecodeError *)
Definition read_text (bytes : list Z) : list Z :=
  universal_newlines (match utf8_decode bytes with Some s => s | None => bytes end).
(** merge_tool.py:280-291, get_text *)
Fixpoint get_text (fs : files) (names : list (list Z)) : res (list (list Z)) :=
  match names with
  | [] => Ok []
  | n :: names =>
    match dget fs n with
    | None => Err OSError
    | Some b => let* r := get_text fs names in Ok (read_text b :: r)
    end
  end.

(** merge_tool.py:294-299, get_bytes; no program calls it *)
Fixpoint get_bytes (fs : files) (names : list (list Z)) : res (list (list Z)) :=
  match names with
  | [] => Ok []
  | n :: names =>
    match dget fs n with
    | None => Err OSError
    | Some b => let* r := get_bytes fs names in Ok (b :: r)
    end
  end.

Section Writing.
(** [os.linesep]: a newline is written as this *)
Variable linesep : list Z.
Definition translate (s : list Z) : list Z := flat_map (fun c => if c =? 10 then linesep else [c]) s.
(** markup.py:57-62, file_writer: the bytes in the file after these calls of [write], and
    None or the exception one of them raised *)
Fixpoint write_all (chunks : list (list Z)) : list Z * option exn :=
  match chunks with
  | [] => ([], None)
  | s :: chunks =>
    match utf8_encode (translate s) with
    | Err e => ([], Some e)
    | Ok b => let '(r, x) := write_all chunks in (b ++ r, x)
    end
  end.
(** markup.py:57-62 around something that calls [write] for each chunk and may then raise.
    The file is emptied first.  After an exception [close] is not called; what was
    written reaches the file when the object is collected. *)
Definition write_file (fs : files) (name : list Z) (out : output) : files * option exn :=
  let '(b, x) := write_all (fst out) in
  (dset fs name b, match x with Some e => Some e | None => snd out end).

(** os.path.basename on POSIX *)
Fixpoint basename_loop (s acc : list Z) : list Z :=
  match s with
  | [] => rev acc
  | c :: s => if c =? 47 then basename_loop s [] else basename_loop s (c :: acc)
  end.
Definition basename (s : list Z) : list Z := basename_loop s [].

(** the options with --output *)
Definition with_output (o : options) : options :=
  mkOptions true (o_words o) (o_lines o) (o_show_lines o) (o_git o) (o_strikeout o) (o_diff o).

Variable re_w space : Z -> bool.
(** merge_tool.py:252-277, diff_cli with --output [out] *)
Definition diff_files (fs : files) (o : options) (original modified out : list Z) : files * option exn :=
  match get_text fs [original; modified] with
  | Ok [a; b] =>
    write_file fs out
      (snd (diff_cli re_w space (with_output o) a b (basename original) (basename modified) initial_styles))
  | Ok _ => (fs, None)                       (* get_text returns one text for each name *)
  | Err e => (fs, Some e)
  end.
(** merge_tool.py:172-241, merge_cli and _merge with --output [out].  The texts are
    tokenized before the file is opened (196-198), but that raises nothing for a str. *)
Definition merge_files (fs : files) (o : options) (parent current other out : list Z) : files * option exn :=
  match get_text fs [parent; current; other] with
  | Ok [p; c; t] =>
    write_file fs out
      (snd (merge_cli re_w space (with_output o) p c t (basename parent) (basename current) (basename other) initial_styles))
  | Ok _ => (fs, None)
  | Err e => (fs, Some e)
  end.
End Writing.
