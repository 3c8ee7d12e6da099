(** Specification vocabulary for what is shown on the console. *)
From Coq Require Import String.
From Verif Require Import Base Lines Markup Rich.
Local Open Scope Z_scope.
Local Open Scope list_scope.

(** a text that begins like a tag of rich: bracket, a-z # / @, then no further opening
    bracket before a closing one *)
Definition tag_like (s : list Z) : Prop :=
  exists c t r, s = 91 :: c :: t ++ 93 :: r /\ (97 <= c <= 122 \/ c = 35 \/ c = 47 \/ c = 64) /\ ~ In 91 t.
(** a backslash directly before such a place *)
Definition masked (s : list Z) : Prop := exists u v, s = u ++ 92 :: v /\ tag_like v.
(** bell, backspace, vertical tab, form feed, carriage return *)
Definition no_control (s : list Z) : Prop := Forall (fun c => ~ In c [7; 8; 11; 12; 13]) s.
(** the code of an emoji between two colons *)
Definition has_emoji (space : Z -> bool) (emoji : list Z -> option (list Z)) (s : list Z) : Prop :=
  exists u n v w, s = u ++ [58] ++ n ++ v ++ [58] ++ w /\ Forall (fun c => space c = false) n /\
    In v [[]; str "-emoji"; str "-text"] /\ emoji n <> None.
(** text rich shows as it is, also between tags *)
Definition harmless space emoji (s : list Z) : Prop :=
  ~ In 92 s /\ no_control s /\ ~ has_emoji space emoji s.

(** the outermost tag around a character *)
Definition outermost (c : cell) : list Z := last (snd c) [].
(** the characters not inside the given tag *)
Definition outside (style : list Z) (cells : list cell) : list Z :=
  map fst (filter (fun c => negb (teq (outermost c) style)) cells).

(** gaspra-diff on the console without options, with a small table of emoji *)
Definition small_table (n : list Z) : option (list Z) := if teq n (str "smile") then Some [128516] else None.
Definition console_diff (original modified : list Z) : list cell * option exn :=
  on_console (fun c => c =? 32) small_table (fun s => s)
    (snd (diff_cli (fun _ => false) (fun _ => false) (mkOptions false false false false false false false)
            original modified (str "a") (str "b") initial_styles)).
