(** What exactly the console shows (C103, C104). *)
From Coq Require Import String Lia.
From Verif Require Import Base Changesets SpecDiff Tokenizers Lines SpecLines Markup SpecMarkup Rich SpecConsole ConsoleProofs
  MarkupProofs MarkupCli SpecMarks CommandLine SpecCommandLine SpecPrograms.
Local Open Scope Z_scope.
Local Open Scope list_scope.

Section Exact.
Variable sp : Z -> bool.
Variable emoji : list Z -> option (list Z).
Variable normalize : list Z -> list Z.
Notation harmless := (harmless sp emoji).
Notation run_ok := (run_ok sp emoji).
Notation run_cells := (run_cells normalize).
Notation render := (render sp emoji normalize).
Notation inner_cells := (inner_cells normalize).
Notation colour := (colour normalize).

Lemma coloured_cells name a cur rest w stack : forall tl, run_cells rest w stack = tl ->
  run_cells (fst (coloured (str name) a cur) ++ rest) w stack =
  (if nonempty a then put cur stack ++ put a (colour name :: stack) else []) ++ tl.
Proof.
  intros tl <-. unfold coloured. destruct (nonempty a); cbn [fst app ConsoleProofs.run_cells List.tl]; [|reflexivity].
  now rewrite <- app_assoc.
Qed.
Lemma runs_close l : forall cur w stack, run_cells (fst (side_runs l cur) ++ [(snd (side_runs l cur), Close)]) w stack =
  put cur stack ++ inner_cells stack l ++ put w (List.tl stack).
Proof.
  induction l as [|[s|a b] l IH]; intros cur w stack; cbn [side_runs fst snd SpecPrograms.inner_cells flat_map app].
  - cbn [ConsoleProofs.run_cells]. reflexivity.
  - fold (inner_cells stack l). rewrite IH, put_app, <- !app_assoc. reflexivity.
  - fold (inner_cells stack l). rewrite <- !app_assoc.
    erewrite coloured_cells; [|erewrite coloured_cells; [|apply IH]; reflexivity].
    destruct a as [|x a], b as [|y b]; cbn [nonempty coloured snd put map app]; rewrite <- ?app_assoc; reflexivity.
Qed.
Lemma runs_end l : forall cur stack, run_cells (fst (side_runs l cur)) (snd (side_runs l cur)) stack =
  put cur stack ++ inner_cells stack l.
Proof.
  induction l as [|[s|a b] l IH]; intros cur stack; cbn [side_runs fst snd SpecPrograms.inner_cells flat_map app].
  - cbn [ConsoleProofs.run_cells]. now rewrite app_nil_r.
  - fold (inner_cells stack l). rewrite IH, put_app, <- !app_assoc. reflexivity.
  - fold (inner_cells stack l).
    erewrite coloured_cells; [|erewrite coloured_cells; [|apply IH]; reflexivity].
    destruct a as [|x a], b as [|y b]; cbn [nonempty coloured snd put map app]; rewrite <- ?app_assoc; reflexivity.
Qed.
(** a coloured side *)
Definition side_cells (name : string) (x : side) : list cell :=
  match x with Flat s => put s [colour name] | Nested l => inner_cells [colour name] l end.
Lemma render_exact x name n : tag_ok (Open (str name)) -> str (append "[" (append name "]")) = 91 :: str name ++ [93] -> harmless (side_chars x) ->
  exists s, change_item rich_escape x (branch_of name) n (Some COLORED_LEVEL1) = Ok s /\ render s = Ok (side_cells name x).
Proof.
  intros T En H. destruct x as [s|l]; cbn [change_item side_chars side_cells] in *.
  - unfold flat_item, branch_of. cbn [subscript bind fst snd]. unfold const. rewrite En. eexists. split; [reflexivity|].
    pose proof (render_run sp emoji normalize [([], Open (str name)); (s, Close)] [] []) as R.
    replace (run_text [([], Open (str name)); (s, Close)] []) with ((91 :: str name ++ [93]) ++ rich_escape s ++ str "[/]") in R.
    2:{ unfold run_text. cbn [flat_map fst snd tag_text]. cbn [rich_escape flat_map app]. rewrite ?app_nil_r, <- ?app_assoc. reflexivity. }
    unfold Rich.render, parse_markup. rewrite R; auto.
    + cbn [ConsoleProofs.run_cells put map app List.tl]. now rewrite app_nil_r.
    + constructor; [apply harmless_run; [apply harmless_nil|exact T]|]. constructor; [apply harmless_run; [exact H|exact I]|constructor].
    + apply no_bs_masked; intros [].
    + split; apply (harmless_nil sp emoji).
    + cbn. exact I.
  - unfold branch_of. cbn [subscript bind fst snd]. unfold const. rewrite En. destruct (side_runs_text l []) as [x [Ex E]]. rewrite Ex. cbn [bind].
    destruct (side_runs_ok sp emoji normalize l [] H) as [F Hw].
    pose proof (side_runs_closes l [] 1 [(snd (side_runs l []), Close)] I) as Cl.
    pose proof (runs_close l [] [] [colour name]) as RC. cbn [put map app List.tl] in RC. rewrite app_nil_r in RC.
    set (rs := fst (side_runs l []) ++ [(snd (side_runs l []), Close)]) in *.
    pose proof (render_run sp emoji normalize (([], Open (str name)) :: rs) [] []) as R.
    eexists. split; [reflexivity|].
    replace (run_text (([], Open (str name)) :: rs) []) with ((91 :: str name ++ [93]) ++ x ++ str "[/]") in R.
    2:{ unfold rs. change (([], Open (str name)) :: fst (side_runs l []) ++ [(snd (side_runs l []), Close)])
          with ([([], Open (str name))] ++ fst (side_runs l []) ++ [(snd (side_runs l []), Close)]).
        rewrite run_text_app, run_text_app. unfold run_text in E |- *. cbn [flat_map fst snd tag_text rich_escape app] in E |- *.
        fold rich_escape in *. rewrite !app_nil_r. rewrite <- E. cbn [app]. f_equal. rewrite <- !app_assoc. reflexivity. }
    unfold Rich.render, parse_markup. rewrite R; auto.
    + cbn [ConsoleProofs.run_cells put map app]. fold (colour name). now rewrite RC.
    + constructor; [apply harmless_run; [apply harmless_nil|exact T]|]. unfold rs. apply Forall_app; split; [exact F|].
      constructor; [apply harmless_run; [exact Hw|exact I]|constructor].
    + apply no_bs_masked; intros [].
    + split; apply (harmless_nil sp emoji).
Qed.
(** a side without a colour of its own *)
Lemma render_bare l cur x : harmless (cur ++ side_text l) -> inner_stream rich_escape l COLORED_LEVEL1 = Ok x ->
  render (rich_escape cur ++ x) = Ok (put cur [] ++ inner_cells [] l).
Proof.
  intros H Ex. destruct (side_runs_text l cur) as [x' [Ex' E]]. rewrite Ex in Ex'. injection Ex' as <-.
  destruct (side_runs_ok sp emoji normalize l cur H) as [F Hw]. rewrite <- E, <- runs_end. unfold Rich.render, parse_markup.
  pose proof (side_runs_closes l cur 0 [] I) as C. rewrite app_nil_r in C.
  rewrite (render_run sp emoji normalize (fst (side_runs l cur)) (snd (side_runs l cur)) []); auto.
  - apply no_bs_masked, Hw.
  - split; apply Hw.
Qed.
Lemma inner_app l l' x x' : inner_stream rich_escape l COLORED_LEVEL1 = Ok x -> inner_stream rich_escape l' COLORED_LEVEL1 = Ok x' ->
  inner_stream rich_escape (l ++ l') COLORED_LEVEL1 = Ok (x ++ x').
Proof.
  intros H H'. revert x H. induction l as [|[s|a b] l IH]; intros x H; cbn [inner_stream app] in *.
  - injection H as <-. exact H'.
  - destruct (inner_stream rich_escape l COLORED_LEVEL1) as [y|]; cbn [bind] in *; [|discriminate]. injection H as <-.
    rewrite (IH y eq_refl). cbn [bind]. now rewrite app_assoc.
  - destruct (inner_stream rich_escape l COLORED_LEVEL1) as [y|].
    + rewrite (IH y eq_refl).
      destruct (if nonempty a then _ else _) as [u|]; cbn [bind] in *; [|discriminate].
      destruct (if nonempty b then _ else _) as [v|]; cbn [bind] in *; [|discriminate]. injection H as <-. now rewrite <- !app_assoc.
    + destruct (if nonempty a then _ else _); cbn [bind] in *; [|discriminate].
      destruct (if nonempty b then _ else _); cbn [bind] in *; discriminate.
Qed.
Lemma cells_app stack l l' : inner_cells stack (l ++ l') = inner_cells stack l ++ inner_cells stack l'.
Proof. apply flat_map_app. Qed.

(** * Streams *)
Definition item_cells (i : mitem) : list cell :=
  match i with MStr s => put s [] | MChange a b => side_cells "green4" a ++ side_cells "dark_red" b end.
Lemma empty_cells name x : side_true x = false -> side_cells name x = [].
Proof. destruct x as [[|]|[|]]; cbn; congruence || reflexivity. Qed.
Lemma stream_exact n0 n1 l : harmless (ConsoleProofs.new_text l) -> harmless (ConsoleProofs.old_text l) ->
  on_console sp emoji normalize (markup_stream rich_escape l COLORED_LEVEL0 (Some COLORED_LEVEL1) n0 n1) = (flat_map item_cells l, None).
Proof.
  unfold on_console. induction l as [|[s|a b] l IH]; intros Hn Ho; cbn [markup_stream ConsoleProofs.new_text ConsoleProofs.old_text flat_map item_cells] in *.
  - reflexivity.
  - fold (ConsoleProofs.new_text l) in *. fold (ConsoleProofs.old_text l) in *.
    specialize (IH (harmless_right _ _ _ _ Hn) (harmless_right _ _ _ _ Ho)).
    cbn [then_print fst snd]. apply harmless_left in Hn. rewrite (print_cons sp emoji normalize _ _ _ _ (render_plain sp emoji normalize s Hn)), IH. reflexivity.
  - fold (ConsoleProofs.new_text l) in *. fold (ConsoleProofs.old_text l) in *.
    specialize (IH (harmless_right _ _ _ _ Hn) (harmless_right _ _ _ _ Ho)). apply harmless_left in Hn, Ho.
    destruct (render_exact a "green4" n0 (green_tag emoji normalize) eq_refl Hn) as [sa [Ea Ra]].
    destruct (render_exact b "dark_red" n1 (red_tag emoji normalize) eq_refl Ho) as [sb [Eb Rb]].
    rewrite green_branch, red_branch, Ea, Eb. cbn [m_separator COLORED_LEVEL0].
    assert (Z0 : render [] = Ok []) by reflexivity.
    match goal with |- context[then_print (Ok []) ?r] => set (rest := r) end.
    assert (K : print_all sp emoji normalize (fst rest) (snd rest) = (side_cells "dark_red" b ++ flat_map item_cells l, None)).
    { unfold rest. destruct (side_true b) eqn:Tr.
      - cbn [then_print fst snd]. now rewrite (print_cons sp emoji normalize _ _ _ _ Rb), IH.
      - rewrite IH, empty_cells by assumption. reflexivity. }
    clearbody rest. destruct (side_true a) eqn:Tr; cbn [then_print fst snd].
    + rewrite (print_cons sp emoji normalize _ _ _ _ Ra), (print_cons sp emoji normalize _ _ _ _ Z0), K. cbn [fst snd app]. now rewrite <- app_assoc.
    + rewrite (print_cons sp emoji normalize _ _ _ _ Z0), K, (empty_cells "green4" a) by assumption. reflexivity.
Qed.
Lemma flat_exact d : flat_map item_cells (flat_stream d) = flat_cells normalize d.
Proof. unfold flat_stream, flat_cells. rewrite flat_map_concat_map, map_map, <- flat_map_concat_map. apply flat_map_ext. now intros []. Qed.
Lemma line_exact d : flat_map item_cells (line_stream d) = line_cells normalize d.
Proof. unfold line_stream, line_cells. rewrite flat_map_concat_map, map_map, <- flat_map_concat_map. apply flat_map_ext. now intros []. Qed.

Lemma simple_escape n : simple_name n -> rich_escape n = n.
Proof.
  clear sp emoji normalize. intros (A & _). unfold rich_escape. induction n as [|c n IH]; [reflexivity|]. cbn [flat_map].
  destruct (Z.eqb_spec c 91) as [->|]; [exfalso; apply A; now left|]. cbn. f_equal. apply IH. intros K. apply A. now right.
Qed.
Lemma simple_app a b : simple_name a -> simple_name b -> simple_name (a ++ b).
Proof.
  clear sp emoji normalize. intros (A1 & A2 & A3 & A4) (B1 & B2 & B3 & B4). unfold simple_name. rewrite !in_app_iff. repeat split; try tauto.
  apply Forall_app; now split.
Qed.
Lemma has_emoji_front a s : ~ In 58 a -> has_emoji sp emoji (a ++ s) -> has_emoji sp emoji s.
Proof.
  clear normalize. intros N (u & n & v & w & E & F & I & J). revert u E. induction a as [|c a IH]; intros u E; cbn [app] in E.
  - exists u, n, v, w. auto.
  - destruct u as [|c' u]; cbn [app] in E; injection E as Ec E.
    + exfalso. apply N. left. now rewrite Ec.
    + apply IH with (u := u); [|exact E]. intros K. apply N. now right.
Qed.
Lemma harmless_front a s : simple_name a -> harmless s -> harmless (a ++ s).
Proof.
  clear normalize. intros (A1 & A2 & A3 & A4) (B1 & B2 & B3). split; [rewrite in_app_iff; tauto|]. split; [apply Forall_app; now split|].
  intros K. apply B3. eapply has_emoji_front; eauto.
Qed.
Lemma has_emoji_rev s b : ~ In 58 b -> has_emoji sp emoji (s ++ b) -> has_emoji sp emoji s.
Proof.
  clear normalize. intros N (u & n & v & w & E & F & I & J). revert w E. induction b as [|c b IH] using rev_ind; intros w E.
  - rewrite app_nil_r in E. exists u, n, v, w. auto.
  - destruct w as [|x w] using rev_ind.
    + exfalso. rewrite app_nil_r, !app_assoc in E. apply app_inj_tail in E as [_ E]. apply N, in_app_iff. right. now left.
    + rewrite !app_assoc in E. apply app_inj_tail in E as [E _]. apply (IH) with (w := w).
      * intros K. apply N, in_app_iff. now left.
      * rewrite E, <- !app_assoc. reflexivity.
Qed.
Lemma harmless_back a s : simple_name a -> harmless s -> harmless (s ++ a).
Proof.
  clear normalize. intros (A1 & A2 & A3 & A4) (B1 & B2 & B3). split; [rewrite in_app_iff; tauto|]. split; [apply Forall_app; now split|].
  intros K. apply B3. eapply has_emoji_rev; eauto.
Qed.
Ltac simple := unfold simple_name, no_control; split; [|split; [|split]]; [cbn; lia|cbn; lia|cbn; lia|repeat (apply Forall_cons; [cbn; lia|]); apply Forall_nil].
Lemma simple_open : simple_name (str "<<<<<<< "). Proof. simple. Qed.
Lemma simple_shut : simple_name (str ">>>>>>> "). Proof. simple. Qed.
Lemma simple_nl : simple_name [10]. Proof. simple. Qed.
Lemma simple_middle : simple_name (str "=======" ++ [10]). Proof. simple. Qed.
Lemma simple_first : simple_name ([10] ++ str "<<<"). Proof. simple. Qed.
Lemma simple_last : simple_name (str ">>>" ++ [10]). Proof. simple. Qed.
Lemma simple_harmless n : simple_name n -> harmless n.
Proof. clear normalize. intros S. rewrite <- (app_nil_r n). apply harmless_front; [exact S|apply harmless_nil]. Qed.
Lemma render_simple n : simple_name n -> render n = Ok (put n []).
Proof. intros S. rewrite <- (simple_escape n S) at 1. apply render_plain. now apply simple_harmless. Qed.

Lemma git_exact n0 n1 d : simple_name n0 -> simple_name n1 -> sides_present d -> harmless (into_text d) -> harmless (from_text d) ->
  on_console sp emoji normalize (markup_stream rich_escape (line_stream d) GIT_MARKUP_LEVEL0 (Some COLORED_LEVEL1) (Some n0) (Some n1)) =
  (git_cells normalize n0 n1 d, None).
Proof.
  intros S0 S1 SP. unfold on_console. induction SP as [|i d H F IH]; intros Hn Ho; [reflexivity|].
  cbn [into_text from_text flat_map] in Hn, Ho. fold (into_text d) in Hn. fold (from_text d) in Ho.
  specialize (IH (harmless_right _ _ _ _ Hn) (harmless_right _ _ _ _ Ho)). apply harmless_left in Hn, Ho.
  destruct i as [s|a b]; cbn [line_stream map markup_stream git_cells flat_map]; fold (line_stream d); fold (git_cells normalize n0 n1 d).
  - cbn [then_print fst snd]. rewrite (print_cons sp emoji normalize _ _ _ _ (render_plain sp emoji normalize s Hn)), IH. reflexivity.
  - destruct H as [Ha Hb]. 
    assert (side_true (Nested a) = true) as -> by (destruct a; [congruence|reflexivity]).
    assert (side_true (Nested b) = true) as -> by (destruct b; [congruence|reflexivity]).
    cbn [change_item GIT_MARKUP_LEVEL0 m_into m_from m_separator subscript bind fst snd].
    destruct (side_runs_text a []) as [x [Ex _]]. destruct (side_runs_text b []) as [y [Ey _]]. rewrite Ex, Ey.
    cbn [bind then_print fst snd show_name].
    assert (SA : simple_name (str "<<<<<<< " ++ n0 ++ newline)) by (apply simple_app; [apply simple_open|apply simple_app; [exact S0|apply simple_nl]]).
    assert (SB : simple_name (str ">>>>>>> " ++ n1 ++ newline)) by (apply simple_app; [apply simple_shut|apply simple_app; [exact S1|apply simple_nl]]).
    assert (R1 : render ((str "<<<<<<< " ++ n0 ++ newline) ++ x ++ const "" (Some n0)) = Ok (put (str "<<<<<<< " ++ n0 ++ newline) [] ++ inner_cells [] a)).
    { replace (x ++ const "" (Some n0)) with x by (cbn; now rewrite app_nil_r).
      rewrite <- (simple_escape _ SA) at 1. apply render_bare; [|exact Ex]. apply harmless_front; [exact SA|exact Hn]. }
    assert (R2 : render (const "" (Some n1) ++ y ++ (str ">>>>>>> " ++ n1 ++ newline)) = Ok (inner_cells [] b ++ put (str ">>>>>>> " ++ n1 ++ newline) [])).
    { pose proof (render_bare (b ++ [LStr (str ">>>>>>> " ++ n1 ++ newline)]) [] (y ++ (str ">>>>>>> " ++ n1 ++ newline))) as R.
      rewrite cells_app in R. cbn [rich_escape flat_map app put map SpecPrograms.inner_cells] in R. rewrite app_nil_r in R. apply R.
      - unfold side_text. rewrite flat_map_app. cbn [flat_map litem_text]. rewrite app_nil_r. apply harmless_back; [exact SB|exact Ho].
      - apply inner_app; [exact Ey|]. cbn [inner_stream bind]. now rewrite simple_escape, app_nil_r by exact SB. }
    rewrite (print_cons sp emoji normalize _ _ _ _ R1), (print_cons sp emoji normalize _ _ _ _ (render_simple _ simple_middle)),
      (print_cons sp emoji normalize _ _ _ _ R2), IH. cbn [fst snd]. unfold newline. rewrite <- !app_assoc. reflexivity.
Qed.
Lemma blue_tag : tag_ok (Open (str "bright_blue")). Proof. cbn; split; [lia|]; split; [intuition lia|]; split; [intuition lia|reflexivity]. Qed.
Lemma heading_exact n : simple_name n -> n <> [] -> render (show_header n COLORED_LEVEL0) = Ok (heading_cells normalize n).
Proof.
  intros S NE. unfold heading_cells. destruct n as [|z n']; [congruence|]. clear NE. set (n := z :: n') in *.
  pose proof (render_run sp emoji normalize [([10] ++ str "<<<", Open (str "bright_blue")); (n, Close)] (str ">>>" ++ [10]) []) as R.
  replace (run_text [([10] ++ str "<<<", Open (str "bright_blue")); (n, Close)] (str ">>>" ++ [10])) with (show_header n COLORED_LEVEL0) in R.
  2:{ unfold run_text. cbn [flat_map fst snd tag_text]. rewrite (simple_escape n S), (simple_escape _ simple_first), (simple_escape _ simple_last).
      unfold show_header. cbn [m_header COLORED_LEVEL0 fst snd]. rewrite <- !app_assoc. reflexivity. }
  unfold Rich.render, parse_markup. rewrite R; auto.
  - constructor; [apply harmless_run; [apply simple_harmless, simple_first|apply blue_tag]|].
    constructor; [apply harmless_run; [now apply simple_harmless|exact I]|constructor].
  - apply no_bs_masked. apply (simple_harmless _ simple_last).
  - split; apply (simple_harmless _ simple_last).
  - exact I.
Qed.
End Exact.
