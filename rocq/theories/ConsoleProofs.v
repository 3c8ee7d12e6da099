(** Proofs about what rich shows (C71). *)
From Coq Require Import String Lia Arith.
From Verif Require Import Base Changesets SpecDiff Merge Tokenizers SpecTokenizers Lines SpecLines LinesProofs LinesMore Markup SpecMarkup
  MarkupProofs MarkupCli MarkupStrike Rich SpecConsole.
Local Open Scope Z_scope.
Local Open Scope list_scope.

#[local] Existing Instance TeqOk_list.

Notation bs := backslashes.
Lemma tag_start_iff c : tag_start c = true <-> (97 <= c <= 122 \/ c = 35 \/ c = 47 \/ c = 64).
Proof. unfold tag_start. lia. Qed.
Lemma to_close_some s : forall t r, to_close s = Some (t, r) -> s = t ++ 93 :: r /\ ~ In 91 t /\ ~ In 93 t.
Proof.
  induction s as [|c s IH]; intros t r; cbn; [discriminate|].
  destruct (Z.eqb_spec c 93) as [->|N]; [intros [= <- <-]; repeat split; auto|].
  destruct (Z.eqb_spec c 91); [discriminate|]. destruct (to_close s) as [[t' r']|]; [|discriminate].
  intros [= <- <-]. destruct (IH t' r' eq_refl) as [-> [A B]]. cbn. repeat split; intuition.
Qed.
Lemma to_close_app t : forall r, ~ In 91 t -> ~ In 93 t -> to_close (t ++ 93 :: r) = Some (t, r).
Proof.
  induction t as [|c t IH]; intros r A B; [reflexivity|]. cbn in *.
  destruct (Z.eqb_spec c 93); [tauto|]. destruct (Z.eqb_spec c 91); [tauto|]. rewrite IH; tauto.
Qed.
Lemma tag_at_some s t r : tag_at s = Some (t, r) -> s = 91 :: t ++ 93 :: r /\ ~ In 91 t /\ tag_like s.
Proof.
  unfold tag_at. destruct s as [|b [|c s]]; try discriminate. destruct (Z.eqb_spec b 91) as [->|]; [|discriminate].
  destruct (tag_start c) eqn:T; [|discriminate]. cbn [andb]. destruct (to_close s) as [[t' r']|] eqn:E; [|discriminate].
  intros [= <- <-]. apply to_close_some in E as [-> [A B]]. apply tag_start_iff in T. split; [reflexivity|]. split.
  - intros [->|H]; [lia|tauto].
  - now exists c, t', r'.
Qed.
Lemma tag_at_ok c t r : tag_start c = true -> ~ In 91 t -> ~ In 93 t -> tag_at (91 :: c :: t ++ 93 :: r) = Some (c :: t, r).
Proof. intros T A B. unfold tag_at. rewrite T. cbn [Z.eqb andb Pos.eqb]. now rewrite to_close_app. Qed.

(** unescaping *)
Definition clean (s : list Z) : Prop := last s 0 <> 92.
Lemma unescape_cons c d r : (c = 92 -> d <> 91) -> unescape (c :: d :: r) = c :: unescape (d :: r).
Proof. intros H. cbn [unescape]. destruct (Z.eqb_spec c 92), (Z.eqb_spec d 91); cbn [andb]; tauto || reflexivity. Qed.
Lemma unescape_app n : forall x y, (length x <= n)%nat -> clean x -> unescape (x ++ y) = unescape x ++ unescape y.
Proof.
  unfold clean. induction n as [|n IH]; intros x y L C; destruct x as [|c x]; try reflexivity; cbn in L; [lia|].
  destruct x as [|d x].
  - cbn in C. destruct y as [|e y]; [reflexivity|]. cbn [app]. rewrite unescape_cons by tauto. reflexivity.
  - cbn [app]. destruct (Z.eq_dec c 92) as [->|Nc].
    + destruct (Z.eq_dec d 91) as [->|Nd].
      * cbn [unescape Z.eqb andb Pos.eqb]. cbn [app]. f_equal. cbn in L. destruct x as [|e x]; [reflexivity|].
        apply (IH (e :: x) y); [cbn in *; lia|]. exact C.
      * rewrite !unescape_cons by tauto. cbn [app]. f_equal. apply (IH (d :: x)); [cbn in *; lia|]. exact C.
    + rewrite !unescape_cons by tauto. cbn [app]. f_equal. apply (IH (d :: x)); [cbn in *; lia|]. exact C.
Qed.
Lemma unescape_bs k : unescape (bs k) = bs k.
Proof. induction k as [|[|k] IH]; [reflexivity|reflexivity|]. cbn [bs repeat]. unfold bs in *. cbn [repeat] in *. rewrite unescape_cons by discriminate. now rewrite IH. Qed.
Lemma unescape_bs_one k c : c <> 91 -> unescape (bs k ++ [c]) = bs k ++ [c].
Proof.
  intros H. induction k as [|[|k] IH]; [reflexivity| |].
  - cbn [bs repeat app]. now rewrite unescape_cons.
  - unfold bs in *. cbn [repeat app] in *. rewrite unescape_cons by discriminate. now rewrite IH.
Qed.
Lemma unescape_bs_bracket k : unescape (bs (S k) ++ [91]) = bs k ++ [91].
Proof.
  induction k as [|k IH]; [reflexivity|]. unfold bs in *. cbn [repeat app] in *. rewrite unescape_cons by discriminate. now rewrite IH.
Qed.
Lemma unescape_plain s : ~ In 91 s -> unescape s = s.
Proof.
  induction s as [|c [|d s] IH]; [reflexivity|reflexivity|]. intros H. rewrite unescape_cons by (intros _ ->; apply H; cbn; tauto).
  rewrite IH; [reflexivity|]. cbn in *; tauto.
Qed.
Lemma unescape_tag t : ~ In 91 t -> unescape (91 :: t ++ [93]) = 91 :: t ++ [93].
Proof.
  intros H. assert (K : ~ In 91 (t ++ [93])) by (intros K; apply in_app_iff in K as [K|[K|[]]]; [tauto|discriminate]).
  apply unescape_plain in K. destruct (t ++ [93]) as [|d s] eqn:E; [reflexivity|]. rewrite unescape_cons by discriminate. now rewrite K.
Qed.
Lemma clean_snoc x c : c <> 92 -> clean (x ++ [c]).
Proof. intros H. unfold clean. now rewrite last_last. Qed.

(** escaping *)
Lemma escape_app s t : rich_escape (s ++ t) = rich_escape s ++ rich_escape t.
Proof. apply flat_map_app. Qed.
Lemma escape_plain s : ~ In 91 s -> rich_escape s = s.
Proof.
  induction s as [|c s IH]; intros H; [reflexivity|]. cbn in *. destruct (Z.eqb_spec c 91) as [->|]; [tauto|].
  cbn. f_equal. apply IH. tauto.
Qed.
Definition tail_ok (s : list Z) : Prop := s = [] \/ exists r, s = 91 :: r.
(** a closing bracket found in an escaped text is in the text *)
Lemma to_close_escape w : forall tail t r, tail_ok tail -> to_close (rich_escape w ++ tail) = Some (t, r) ->
  exists w', w = t ++ 93 :: w' /\ r = rich_escape w' ++ tail.
Proof.
  induction w as [|c w IH]; intros tail t r T.
  - destruct T as [->|[q ->]]; cbn; discriminate.
  - cbn [rich_escape flat_map app]. destruct (Z.eqb_spec c 91) as [->|N].
    + cbn. discriminate.
    + cbn [app to_close]. destruct (Z.eqb_spec c 93) as [->|M].
      * intros [= <- <-]. now exists w.
      * destruct (Z.eqb_spec c 91); [tauto|]. fold (rich_escape w).
        destruct (to_close (rich_escape w ++ tail)) as [[t' r']|] eqn:E; [|discriminate].
        intros [= <- <-]. destruct (IH tail t' r' T E) as [w' [-> ->]]. now exists w'.
Qed.
Lemma tag_at_escape w tail t r : tail_ok tail -> tag_at (91 :: rich_escape w ++ tail) = Some (t, r) ->
  exists w', w = t ++ 93 :: w' /\ r = rich_escape w' ++ tail /\ ~ In 91 t /\ tag_like (91 :: w).
Proof.
  intros T E. pose proof (tag_at_some _ _ _ E) as [_ [A _]]. unfold tag_at in E.
  destruct w as [|c w].
  - destruct T as [->|[q ->]]; cbn in E; discriminate.
  - cbn [rich_escape flat_map app] in E. destruct (Z.eqb_spec c 91) as [->|N]; [cbn in E; discriminate|].
    cbn [app Z.eqb Pos.eqb andb] in E. destruct (tag_start c) eqn:S0; [|discriminate]. fold (rich_escape w) in E.
    destruct (to_close (rich_escape w ++ tail)) as [[t' r']|] eqn:E'; [|discriminate].
    injection E as <- <-. apply (to_close_escape w tail t' r' T) in E' as [w' [-> ->]].
    exists w'. repeat split; auto. exists c, t', w'. apply tag_start_iff in S0. repeat split; auto. cbn in A; tauto.
Qed.

Lemma escape_length w : (length w <= length (rich_escape w))%nat.
Proof. induction w as [|c w IH]; [cbn; lia|]. cbn. destruct (c =? 91); cbn; fold (rich_escape w); lia. Qed.
Lemma bs_S k : bs (S k) = bs k ++ [92].
Proof. unfold bs. cbn. now rewrite repeat_cons. Qed.

Lemma rev_repeat' k : rev (repeat 92 k) = repeat 92 k.
Proof. induction k; [reflexivity|]. cbn. now rewrite IHk, <- repeat_cons. Qed.

(** parsing an escaped text *)
Lemma parse_text n : forall w tail k acc fuel, (length w <= n)%nat -> (length (rich_escape w ++ tail) <= fuel)%nat ->
  tail_ok tail -> clean (rev acc) -> ~ masked (bs k ++ w) ->
  exists ps acc' k' fuel', parse fuel (rich_escape w ++ tail) k acc = map PText ps ++ parse fuel' tail k' acc' /\
    (length tail <= fuel')%nat /\ clean (rev acc') /\
    concat (map unescape ps) ++ unescape (rev acc') ++ bs k' = unescape (rev acc) ++ bs k ++ w.
Proof.
  induction n as [|n IH]; intros w tail k acc fuel L F T C M.
  { destruct w; [|cbn in L; lia]. exists [], acc, k, fuel. cbn in F |- *. rewrite app_nil_r. auto. }
  destruct w as [|c w]; [exists [], acc, k, fuel; cbn in F |- *; rewrite app_nil_r; auto|]. cbn in L.
  destruct (Z.eq_dec c 92) as [->|N92].
  { cbn [rich_escape flat_map Z.eqb Pos.eqb app] in F |- *. fold (rich_escape w) in F |- *. cbn in F. destruct fuel as [|fuel]; [lia|].
    cbn [parse Z.eqb Pos.eqb]. destruct (IH w tail (S k) acc fuel) as [ps [acc' [k' [fuel' [E [F' [C' X]]]]]]]; auto; try lia.
    { rewrite bs_S, <- app_assoc. exact M. }
    exists ps, acc', k', fuel'. rewrite E, X, bs_S, <- app_assoc. auto. }
  destruct (Z.eq_dec c 91) as [->|N91].
  - cbn [rich_escape flat_map Z.eqb Pos.eqb app] in F |- *. fold (rich_escape w) in F |- *. cbn in F. destruct fuel as [|[|fuel]]; try lia.
    cbn [parse Z.eqb Pos.eqb]. destruct (tag_at (91 :: rich_escape w ++ tail)) as [[t r]|] eqn:E.
    + destruct (tag_at_escape w tail t r T E) as [w' [-> [-> [A TL]]]].
      assert (k = 0%nat) as ->.
      { destruct k as [|k]; [reflexivity|]. exfalso. apply M. exists (bs k), (91 :: t ++ 93 :: w'). split; [|exact TL].
        now rewrite bs_S, <- app_assoc. }
      cbn [Nat.div2 Nat.odd Nat.even negb bs repeat text_piece app].
      destruct (IH w' tail 0%nat [] fuel) as [ps [acc' [k' [fuel' [E' [F' [C' X]]]]]]]; auto.
      { rewrite app_length in L. cbn in L. lia. }
      { rewrite escape_app in F. rewrite !app_length in *. cbn [rich_escape flat_map Z.eqb Pos.eqb app length] in F.
        fold (rich_escape w') in F. lia. }
      { unfold clean. cbn. discriminate. }
      { intros [u [v [Ev TL']]]. apply M. exists (91 :: t ++ 93 :: u), v. split; [|exact TL']. cbn in *. rewrite Ev. now rewrite <- app_assoc. }
      exists ((match rev acc with [] => [] | _ => [rev acc] end) ++ (91 :: t ++ [93]) :: ps), acc', k', fuel'.
      split; [|split; [auto|split; [auto|]]].
      * rewrite E'. destruct (rev acc); cbn; reflexivity.
      * rewrite map_app, concat_app. cbn [map concat]. rewrite unescape_tag by exact A.
        rewrite <- !app_assoc. rewrite X. cbn [rev unescape app bs repeat]. rewrite <- app_assoc.
        destruct (rev acc); cbn [map concat app]; [reflexivity|]. now rewrite app_nil_r.
    + destruct (IH w tail 0%nat (91 :: bs (S k) ++ acc) fuel) as [ps [acc' [k' [fuel' [E' [F' [C' X]]]]]]]; auto; try lia.
      { cbn [rev]. now apply clean_snoc. }
      { intros [u [v [Ev TL']]]. apply M. exists (bs k ++ 91 :: u), v. split; [|exact TL']. cbn in Ev. rewrite Ev. now rewrite <- app_assoc. }
      exists ps, acc', k', fuel'. rewrite E', X. split; [reflexivity|]. repeat (split; [auto|]).
      cbn [rev]. rewrite rev_app_distr. unfold bs at 1. rewrite <- (rev_involutive (repeat 92 (S k))), rev_repeat', rev_involutive.
      fold (bs (S k)). rewrite <- app_assoc. rewrite (unescape_app (length (rev acc))) by auto. rewrite unescape_bs_bracket.
      cbn [bs repeat app]. now rewrite <- !app_assoc.
  - assert (Ec : rich_escape (c :: w) = c :: rich_escape w) by (cbn; destruct (Z.eqb_spec c 91); [tauto|reflexivity]).
    rewrite Ec in F |- *. cbn in F. destruct fuel as [|fuel]; [lia|]. cbn [app parse].
    destruct (Z.eqb_spec c 92); [tauto|].
    assert (tag_at (c :: rich_escape w ++ tail) = None) as ->.
    { unfold tag_at. destruct (rich_escape w ++ tail); [reflexivity|]. destruct (Z.eqb_spec c 91); [tauto|reflexivity]. }
    destruct (IH w tail 0%nat (c :: bs k ++ acc) fuel) as [ps [acc' [k' [fuel' [E' [F' [C' X]]]]]]]; auto; try lia.
    { cbn [rev]. now apply clean_snoc. }
    { intros [u [v [Ev TL']]]. apply M. exists (bs k ++ c :: u), v. split; [|exact TL']. cbn in Ev. rewrite Ev. now rewrite <- app_assoc. }
    exists ps, acc', k', fuel'. rewrite E', X. split; [reflexivity|]. repeat (split; [auto|]).
    cbn [rev]. rewrite rev_app_distr. unfold bs at 1. rewrite rev_repeat'. fold (bs k). rewrite <- app_assoc.
    rewrite (unescape_app (length (rev acc))) by auto. rewrite unescape_bs_one by auto.
    cbn [bs repeat app]. now rewrite <- !app_assoc.
Qed.

(** rendering plain text *)
Section Render.
Variable space : Z -> bool.
Variable emoji : list Z -> option (list Z).
Variable normalize : list Z -> list Z.
Notation has_emoji := (has_emoji space emoji).
Notation emoji_loop := (emoji_loop space emoji).
Notation emoji_replace := (emoji_replace space emoji).
Notation render_pieces := (render_pieces space emoji normalize).

Lemma prefix_some p : forall s r, strip_prefix p s = Some r -> s = p ++ r.
Proof.
  induction p as [|x p IH]; intros s r; cbn; [now intros [= ->]|]. destruct s as [|y s]; [discriminate|].
  destruct (Z.eqb_spec x y) as [->|]; [|discriminate]. intros H. apply IH in H as ->. reflexivity.
Qed.
Lemma emoji_name_eq s : emoji_name space s =
  match strip_prefix (str "-emoji:") s with
  | Some r => Some ([], [65039], r)
  | None =>
    match strip_prefix (str "-text:") s with
    | Some r => Some ([], [65038], r)
    | None =>
      match s with
      | [] => None
      | c :: r =>
        if c =? 58 then Some ([], [], r)
        else if space c then None
        else match emoji_name space r with
             | Some (n, v, r) => Some (c :: n, v, r)
             | None => None
             end
      end
    end
  end.
Proof. now destruct s. Qed.
Lemma emoji_name_some s : forall n v r, emoji_name space s = Some (n, v, r) ->
  exists q, s = n ++ q ++ [58] ++ r /\ Forall (fun c => space c = false) n /\ In q [[]; str "-emoji"; str "-text"].
Proof.
  induction s as [|c s IH]; intros n v r; rewrite emoji_name_eq; [discriminate|].
  destruct (strip_prefix (str "-emoji:") (c :: s)) as [q|] eqn:E1.
  { intros [= <- <- <-]. apply prefix_some in E1. exists (str "-emoji"). split; [exact E1|]. split; [constructor|]. cbn; tauto. }
  destruct (strip_prefix (str "-text:") (c :: s)) as [q|] eqn:E2.
  { intros [= <- <- <-]. apply prefix_some in E2. exists (str "-text"). split; [exact E2|]. split; [constructor|]. cbn; tauto. }
  clear E1 E2. destruct (Z.eqb_spec c 58) as [->|].
  { intros [= <- <- <-]. exists []. split; [reflexivity|]. split; [constructor|]. cbn; tauto. }
  destruct (space c) eqn:S0; [discriminate|]. destruct (emoji_name space s) as [[[n' v'] r']|]; [|discriminate].
  intros [= <- <- <-]. destruct (IH n' v' r' eq_refl) as [q [-> [F I]]]. exists q. repeat split; auto.
Qed.
Lemma has_emoji_app u s v : has_emoji s -> has_emoji (u ++ s ++ v).
Proof.
  intros [a [n [q [w [-> [F [I E]]]]]]]. exists (u ++ a), n, q, (w ++ v). repeat split; auto. now rewrite <- !app_assoc.
Qed.
Lemma emoji_loop_id fuel : forall s, ~ has_emoji s -> emoji_loop fuel s = s.
Proof.
  induction fuel as [|fuel IH]; intros s H; [now destruct s|]. destruct s as [|c s]; [reflexivity|]. cbn [Rich.emoji_loop].
  assert (Hs : ~ has_emoji s).
  { intros K. apply H. apply (has_emoji_app [c] s []) in K. now rewrite app_nil_r in K. }
  destruct (Z.eqb_spec c 58) as [->|]; [|now rewrite IH].
  destruct (emoji_name space s) as [[[n v] r]|] eqn:E; [|now rewrite IH].
  apply emoji_name_some in E as [q [Es [F I]]].
  assert (Hn : emoji n = None).
  { destruct (emoji n) as [e|] eqn:En; [|reflexivity]. exfalso. apply H. exists [], n, q, r. rewrite Es. repeat split; auto. congruence. }
  rewrite Hn. rewrite IH.
  - cbn [app]. f_equal. assert (E : s = (n ++ q ++ [58]) ++ r) by (rewrite Es, <- !app_assoc; reflexivity). rewrite E.
    generalize (n ++ q ++ [58]). intros x. rewrite app_length. replace (length x + length r - length r)%nat with (length x + 0)%nat by lia.
    rewrite firstn_app_2. cbn. now rewrite app_nil_r.
  - intros K. apply Hs. rewrite Es. apply (has_emoji_app (n ++ q ++ [58]) r []) in K. now rewrite app_nil_r, <- !app_assoc in K.
Qed.
Lemma strip_control_id s : no_control s -> strip_control s = s.
Proof.
  unfold strip_control. induction 1 as [|c s H F IH]; [reflexivity|]. cbn [filter].
  assert (control c = false) as ->.
  { unfold control. destruct (existsb (Z.eqb c) [7; 8; 11; 12; 13]) eqn:E; [|reflexivity]. apply existsb_exists in E as [x [I E]].
    apply Z.eqb_eq in E as ->. tauto. }
  cbn [negb]. now rewrite IH.
Qed.
(** the text is shown as it is *)
Definition quiet (s : list Z) : Prop := no_control s /\ ~ has_emoji s.
Lemma quiet_piece u s v : quiet (u ++ s ++ v) -> quiet s.
Proof.
  intros [A B]. split; [|intros K; now apply B, has_emoji_app]. unfold no_control in *. apply Forall_app in A as [_ A]. now apply Forall_app in A.
Qed.
Lemma shown_as_is s : quiet s -> strip_control (emoji_replace s) = s.
Proof. intros [A B]. unfold Rich.emoji_replace. rewrite emoji_loop_id by assumption. now apply strip_control_id. Qed.
Lemma put_app s t stack : put (s ++ t) stack = put s stack ++ put t stack.
Proof. apply map_app. Qed.
Lemma render_texts ps : forall u l stack r, quiet (u ++ concat (map unescape ps)) -> render_pieces l stack = Ok r ->
  render_pieces (map PText ps ++ l) stack = Ok (put (concat (map unescape ps)) stack ++ r).
Proof.
  induction ps as [|p ps IH]; intros u l stack r Q H; [exact H|]. cbn [map app concat Rich.render_pieces] in *.
  rewrite (IH (u ++ unescape p) l stack r); [|now rewrite <- app_assoc|exact H]. cbn [bind].
  apply quiet_piece in Q. rewrite shown_as_is by exact Q. rewrite put_app. now rewrite <- app_assoc.
Qed.
Lemma render_text_piece s l stack r : quiet (unescape s) -> render_pieces l stack = Ok r ->
  render_pieces (text_piece s ++ l) stack = Ok (put (unescape s) stack ++ r).
Proof.
  intros Q H. destruct s as [|c s]; [exact H|]. cbn [text_piece app Rich.render_pieces]. rewrite H. cbn [bind].
  now rewrite shown_as_is.
Qed.

(** tags written by the program, and texts between them *)
Inductive tag := Open (name : list Z) | Close.
Definition tag_text (t : tag) : list Z := match t with Open n => 91 :: n ++ [93] | Close => [91; 47; 93] end.
Definition tag_ok (t : tag) : Prop :=
  match t with
  | Open n => match n with c :: r => 97 <= c <= 122 /\ ~ In 91 r /\ ~ In 93 r /\ before_equals n = n | [] => False end
  | Close => True
  end.
Definition run_text (l : list (list Z * tag)) (w : list Z) : list Z :=
  flat_map (fun p => rich_escape (fst p) ++ tag_text (snd p)) l ++ rich_escape w.
Fixpoint run_cells (l : list (list Z * tag)) (w : list Z) (stack : list (list Z)) : list cell :=
  match l with
  | [] => put w stack
  | (s, Open n) :: l => put s stack ++ run_cells l w (normalize n :: stack)
  | (s, Close) :: l => put s stack ++ run_cells l w (List.tl stack)
  end.
Fixpoint closes (l : list (list Z * tag)) (depth : nat) : Prop :=
  match l with
  | [] => True
  | (_, Open _) :: l => closes l (S depth)
  | (_, Close) :: l => match depth with O => False | S d => closes l d end
  end.
Definition run_ok (p : list Z * tag) : Prop :=
  ~ masked (fst p) /\ last (fst p) 0 <> 92 /\ quiet (fst p) /\ tag_ok (snd p).

Lemma before_slash : before_equals [47] = [47].
Proof. reflexivity. Qed.
Lemma parse_end fuel k acc : parse fuel [] k acc = text_piece (rev acc ++ bs k).
Proof. now destruct fuel. Qed.
Lemma bs_last (x y : list Z) k : x ++ bs k = y -> last y 0 <> 92 -> k = 0%nat.
Proof. intros <- H. destruct k as [|k]; [reflexivity|]. exfalso. apply H. rewrite bs_S, app_assoc. apply last_last. Qed.

Theorem render_run l : forall w stack fuel, (length (run_text l w) <= fuel)%nat ->
  Forall run_ok l -> ~ masked w -> quiet w -> closes l (length stack) ->
  render_pieces (parse fuel (run_text l w) 0 []) stack = Ok (run_cells l w stack).
Proof.
  induction l as [|[s t] l IH]; intros w stack fuel Lf F M Q C.
  - cbn [run_text flat_map app run_cells] in *. rewrite <- (app_nil_r (rich_escape w)) in Lf |- *.
    destruct (parse_text (length w) w [] 0 [] fuel (le_n _) Lf (or_introl eq_refl)) as [ps [acc' [k' [fuel' [E [_ [C' X]]]]]]];
      [unfold clean; discriminate|exact M|]. cbn [rev unescape bs repeat app] in X. rewrite E, parse_end.
    rewrite <- X in Q. rewrite (app_assoc) in X.
    assert (U : unescape (rev acc' ++ bs k') = unescape (rev acc') ++ bs k').
    { rewrite (unescape_app (length (rev acc'))) by auto. now rewrite unescape_bs. }
    rewrite <- (app_nil_r (text_piece _)).
    rewrite (render_texts ps [] _ stack (put (unescape (rev acc' ++ bs k')) stack ++ [])).
    + rewrite app_nil_r, U, <- put_app. now rewrite <- X, <- app_assoc.
    + cbn [app]. apply (quiet_piece [] _ (unescape (rev acc') ++ bs k')). exact Q.
    + apply render_text_piece; [|reflexivity]. rewrite U. apply (quiet_piece (concat (map unescape ps)) _ []). now rewrite app_nil_r.
  - inversion F as [|? ? [Ms [Ls [Qs Ts]]] F']; subst. cbn [fst snd] in *.
    assert (R : run_text ((s, t) :: l) w = rich_escape s ++ tag_text t ++ run_text l w).
    { unfold run_text. cbn [flat_map fst snd]. now rewrite <- !app_assoc. }
    rewrite R in Lf |- *.
    assert (To : tail_ok (tag_text t ++ run_text l w)) by (right; destruct t; cbn; eauto).
    destruct (parse_text (length s) s _ 0 [] fuel (le_n _) Lf To) as [ps [acc' [k' [fuel' [E [Lf' [C' X]]]]]]];
      [unfold clean; discriminate|exact Ms|]. cbn [rev unescape bs repeat app] in X. rewrite E.
    assert (k' = 0%nat) as -> by (eapply bs_last; [rewrite app_assoc in X; exact X|exact Ls]).
    cbn [bs repeat] in X. rewrite app_nil_r in X. rewrite <- X in Qs.
    assert (P : exists fuel'' tx, (length (run_text l w) <= fuel'')%nat /\
        parse fuel' (tag_text t ++ run_text l w) 0 acc' = text_piece (rev acc') ++ PTag tx :: parse fuel'' (run_text l w) 0 [] /\
        tx = match t with Open n => n | Close => [47] end).
    { destruct fuel' as [|fuel']; [destruct t; cbn in Lf'; lia|]. exists fuel'. eexists. split; [|split; [|reflexivity]].
      - destruct t; cbn in Lf'; rewrite ?app_length in Lf'; lia.
      - cbn [parse]. destruct t as [[|c n]|]; cbn [tag_text app] in *; [destruct Ts| |].
        + destruct Ts as [Tc [A [B _]]]. cbn [Z.eqb Pos.eqb]. rewrite <- app_assoc. cbn [app].
          rewrite tag_at_ok; [reflexivity|apply tag_start_iff; lia|assumption|assumption].
        + cbn [Z.eqb Pos.eqb]. change (91 :: 47 :: 93 :: run_text l w) with (91 :: 47 :: [] ++ 93 :: run_text l w). rewrite tag_at_ok; [reflexivity|reflexivity|cbn; tauto|cbn; tauto]. }
    destruct P as [fuel'' [tx [L'' [-> ->]]]].
    assert (Qp : quiet (concat (map unescape ps))) by (apply (quiet_piece [] _ (unescape (rev acc'))); exact Qs).
    assert (Qa : quiet (unescape (rev acc'))) by (apply (quiet_piece (concat (map unescape ps)) _ []); now rewrite app_nil_r).
    assert (G : forall r, render_pieces (PTag match t with Open n => n | Close => [47] end :: parse fuel'' (run_text l w) 0 []) stack = Ok r ->
      render_pieces (map PText ps ++ text_piece (rev acc') ++ PTag match t with Open n => n | Close => [47] end :: parse fuel'' (run_text l w) 0 []) stack
      = Ok (put s stack ++ r)).
    { intros r H. rewrite (render_texts ps [] _ stack (put (unescape (rev acc')) stack ++ r)); [|exact Qp|now apply render_text_piece].
      now rewrite app_assoc, <- put_app, X. }
    destruct t as [n|]; cbn [run_cells] in *; apply G; cbn [Rich.render_pieces].
    + destruct n as [|c n]; [destruct Ts|]. destruct Ts as [Tc [_ [_ Be]]]. rewrite Be.
      cbn [closes] in C.
      cbn [starts_slash]. destruct (Z.eqb_spec c 47); [lia|]. apply IH; auto.
    + rewrite before_slash. cbn [starts_slash Z.eqb Pos.eqb List.tl strip lstrip rev]. cbn [closes] in C.
      destruct stack as [|x stack]; [destruct C|]. apply IH; auto.
Qed.
End Render.

(** the chunks of gaspra-diff and gaspra-merge *)
Section Chunks.
Variable sp : Z -> bool.        (* \s *)
Variable emoji : list Z -> option (list Z).
Variable normalize : list Z -> list Z.
Let green := normalize (str "green4").
Let red := normalize (str "dark_red").
Hypothesis GR : green <> red.
Hypothesis G0 : green <> [].
Hypothesis R0 : red <> [].
Notation harmless := (harmless sp emoji).
Notation run_ok := (run_ok sp emoji).
Notation run_cells := (run_cells normalize).

Lemma harmless_piece u s v : harmless (u ++ s ++ v) -> harmless s.
Proof.
  intros [A [B C]]. split; [|split].
  - intros K. apply A, in_app_iff. right. apply in_app_iff. now left.
  - unfold no_control in *. apply Forall_app in B as [_ B]. now apply Forall_app in B.
  - intros K. apply C. now apply has_emoji_app.
Qed.
Lemma harmless_left s v : harmless (s ++ v) -> harmless s.
Proof. apply (harmless_piece [] s v). Qed.
Lemma harmless_right u s : harmless (u ++ s) -> harmless s.
Proof. intros H. apply (harmless_piece u s []). now rewrite app_nil_r. Qed.
Lemma harmless_nl s : harmless s -> harmless (s ++ [10]).
Proof.
  intros [A [B C]]. split; [|split].
  - intros K. apply in_app_iff in K as [K|[K|[]]]; [tauto|discriminate].
  - apply Forall_app; split; [exact B|]. constructor; [|constructor]. cbn. intuition lia.
  - intros [u [n [v [w [E [F [I J]]]]]]]. apply C. destruct w as [|x w] using rev_ind.
    + rewrite app_nil_r, !app_assoc in E. apply app_inj_tail in E as [_ E]. discriminate.
    + rewrite !app_assoc in E. apply app_inj_tail in E as [E _]. exists u, n, v, w. rewrite E. repeat split; auto. now rewrite <- !app_assoc.
Qed.
Lemma no_bs_last s : ~ In 92 s -> last s 0 <> 92.
Proof.
  intros H E. destruct s as [|x s] using rev_ind; [discriminate|]. rewrite last_last in E. subst x. apply H, in_app_iff. right; now left.
Qed.
Lemma no_bs_masked s : ~ In 92 s -> ~ masked s.
Proof. intros H [u [v [-> _]]]. apply H, in_app_iff. right; now left. Qed.
Lemma harmless_run s t : harmless s -> tag_ok t -> run_ok (s, t).
Proof. intros [A [B C]] T. split; [now apply no_bs_masked|]. split; [now apply no_bs_last|]. split; [now split|exact T]. Qed.
Lemma harmless_nil : harmless [].
Proof. split; [intros []|]. split; [constructor|]. intros [u [n [v [w [E _]]]]]. destruct u; discriminate. Qed.

Ltac name_ok := cbn; split; [lia|]; split; [intuition lia|]; split; [intuition lia|reflexivity].
Lemma green_tag : tag_ok (Open (str "green4")). Proof. name_ok. Qed.
Lemma red_tag : tag_ok (Open (str "dark_red")). Proof. name_ok. Qed.
Lemma light_tag : tag_ok (Open (str "light_green")). Proof. name_ok. Qed.
Lemma pink_tag : tag_ok (Open (str "pink1")). Proof. name_ok. Qed.

Definition coloured (name a cur : list Z) : list (list Z * tag) * list Z :=
  if nonempty a then ([(cur, Open name); (a, Close)], []) else ([], cur).
Fixpoint side_runs (l : list litem) (cur : list Z) : list (list Z * tag) * list Z :=
  match l with
  | [] => ([], cur)
  | LStr s :: l => side_runs l (cur ++ s)
  | LChange a b :: l =>
    let r1 := coloured (str "light_green") a cur in
    let r2 := coloured (str "pink1") b (snd r1) in
    let r := side_runs l (snd r2) in
    (fst r1 ++ fst r2 ++ fst r, snd r)
  end.
Lemma run_text_app l l' w : run_text (l ++ l') w = flat_map (fun p => rich_escape (fst p) ++ tag_text (snd p)) l ++ run_text l' w.
Proof. unfold run_text. now rewrite flat_map_app, <- app_assoc. Qed.
Lemma coloured_text name a cur l w : run_text (fst (coloured name a cur) ++ l) w =
  (if nonempty a then rich_escape cur ++ (91 :: name ++ [93]) ++ rich_escape a ++ [91; 47; 93] else []) ++ run_text l w.
Proof.
  rewrite run_text_app. unfold coloured. destruct (nonempty a); [|reflexivity]. cbn [fst flat_map tag_text snd].
  rewrite ?app_nil_r, <- !app_assoc. reflexivity.
Qed.
Lemma light_prefix : const "[light_green]" None = 91 :: str "light_green" ++ [93]. Proof. reflexivity. Qed.
Lemma pink_prefix : const "[pink1]" None = 91 :: str "pink1" ++ [93]. Proof. reflexivity. Qed.
Lemma close_suffix : const "[/]" None = [91; 47; 93]. Proof. reflexivity. Qed.
Lemma side_runs_text l : forall cur, exists x, inner_stream rich_escape l COLORED_LEVEL1 = Ok x /\
  run_text (fst (side_runs l cur)) (snd (side_runs l cur)) = rich_escape cur ++ x.
Proof.
  induction l as [|[s|a b] l IH]; intros cur; cbn [inner_stream side_runs].
  - exists []. split; [reflexivity|]. cbn. now rewrite app_nil_r.
  - destruct (IH (cur ++ s)) as [x [-> E]]. exists (rich_escape s ++ x). split; [reflexivity|]. rewrite E, escape_app. now rewrite <- app_assoc.
  - destruct (IH (snd (coloured (str "pink1") b (snd (coloured (str "light_green") a cur))))) as [x [Ex E]]. cbn [fst snd].
    rewrite coloured_text, coloured_text, E, Ex. unfold flat_item. cbn [subscript m_into m_from m_separator COLORED_LEVEL1 bind fst snd const].
    unfold coloured. destruct (nonempty a), (nonempty b); cbn [bind snd fst app]; (eexists; split; [reflexivity|]);
      rewrite ?light_prefix, ?pink_prefix, ?close_suffix; cbn [rich_escape flat_map]; fold rich_escape;
      repeat (cbn [app]; rewrite <- ?app_assoc, ?app_nil_r); reflexivity.
Qed.
Lemma side_runs_ok l : forall cur, harmless (cur ++ side_text l) ->
  Forall run_ok (fst (side_runs l cur)) /\ harmless (snd (side_runs l cur)).
Proof.
  assert (Col : forall name a cur rest, tag_ok (Open name) -> harmless (cur ++ a ++ rest) ->
    Forall run_ok (fst (coloured name a cur)) /\ harmless (snd (coloured name a cur) ++ rest)).
  { intros name a cur rest T H. unfold coloured. destruct a as [|c a]; cbn [nonempty fst snd]; [split; [constructor|exact H]|].
    split; [|apply harmless_right in H; now apply harmless_right in H].
    constructor; [apply harmless_run; [now apply harmless_left in H|exact T]|].
    constructor; [|constructor]. apply harmless_run; [|exact I]. apply harmless_right in H. now apply harmless_left in H. }
  induction l as [|[s|a b] l IH]; intros cur H; cbn [side_runs side_text flat_map litem_text] in *.
  - rewrite app_nil_r in H. now split; [constructor|].
  - apply IH. now rewrite <- app_assoc.
  - fold (side_text l) in H. cbn [fst snd]. rewrite <- app_assoc in H.
    destruct (Col (str "light_green") a cur (b ++ side_text l) light_tag H) as [F1 H1].
    destruct (Col (str "pink1") b _ (side_text l) pink_tag H1) as [F2 H2].
    destruct (IH _ H2) as [F3 H3]. split; [|exact H3]. repeat (apply Forall_app; split; auto).
Qed.
Lemma side_runs_closes l : forall cur d rest, closes rest d -> closes (fst (side_runs l cur) ++ rest) d.
Proof.
  induction l as [|[s|a b] l IH]; intros cur d rest H; cbn [side_runs fst]; auto.
  unfold coloured. destruct (nonempty a), (nonempty b); cbn [fst snd app closes]; auto.
Qed.
Definition under (g : list Z) (c : cell) : Prop := outermost c = g.
Lemma put_chars s stack : map fst (put s stack) = s.
Proof. unfold put. rewrite map_map. apply map_id. Qed.
Lemma put_under s stack g : last stack [] = g -> Forall (under g) (put s stack).
Proof. intros H. unfold put. apply Forall_forall. intros x Hx. apply in_map_iff in Hx as [c [<- _]]. exact H. Qed.
Lemma side_runs_cells g l : forall cur,
  let c := run_cells (fst (side_runs l cur) ++ [(snd (side_runs l cur), Close)]) [] [g] in
  map fst c = cur ++ side_text l /\ Forall (under g) c.
Proof.
  assert (Hc : forall name a cur rest, let c := run_cells (fst (coloured name a cur) ++ rest) [] [g] in
     let c' := run_cells rest [] [g] in
     map fst c = (if nonempty a then cur ++ a else []) ++ map fst c' /\ (Forall (under g) c' -> Forall (under g) c)).
  { intros name a cur rest. unfold coloured. destruct (nonempty a); cbn [fst app ConsoleProofs.run_cells List.tl].
    - rewrite !map_app, !put_chars, <- app_assoc. split; [reflexivity|]. intros F. apply Forall_app; split; [now apply put_under|].
      apply Forall_app; split; [now apply put_under|exact F].
    - now split. }
  induction l as [|[s|a b] l IH]; intros cur; cbn [side_runs fst snd side_text flat_map litem_text].
  - cbn [app ConsoleProofs.run_cells List.tl put map]. rewrite !app_nil_r, put_chars. split; [reflexivity|now apply put_under].
  - destruct (IH (cur ++ s)) as [E F]. split; [|exact F]. cbn zeta in E. rewrite E, <- app_assoc. reflexivity.
  - cbn zeta. rewrite <- !app_assoc. destruct (IH (snd (coloured (str "pink1") b (snd (coloured (str "light_green") a cur))))) as [E F].
    destruct (Hc (str "pink1") b (snd (coloured (str "light_green") a cur))
      (fst (side_runs l (snd (coloured (str "pink1") b (snd (coloured (str "light_green") a cur))))) ++ [(snd (side_runs l (snd (coloured (str "pink1") b (snd (coloured (str "light_green") a cur))))), Close)])) as [E2 F2].
    destruct (Hc (str "light_green") a cur (fst (coloured (str "pink1") b (snd (coloured (str "light_green") a cur))) ++
      fst (side_runs l (snd (coloured (str "pink1") b (snd (coloured (str "light_green") a cur))))) ++ [(snd (side_runs l (snd (coloured (str "pink1") b (snd (coloured (str "light_green") a cur))))), Close)])) as [E1 F1].
    split; [|auto]. rewrite E1, E2, E. clear. unfold coloured. destruct a, b; cbn [nonempty snd app]; rewrite ?app_nil_r, <- ?app_assoc; reflexivity.
Qed.

Notation render := (render sp emoji normalize).
(** one chunk: a coloured side *)
Definition side_chars (x : side) : list Z := match x with Flat s => s | Nested l => side_text l end.
Definition branch_of (name : string) : branch := Branch (const (append "[" (append name "]"))) (const "[/]").
Lemma render_side x name n : tag_ok (Open (str name)) -> str (append "[" (append name "]")) = 91 :: str name ++ [93] -> harmless (side_chars x) ->
  exists s cells, change_item rich_escape x (branch_of name) n (Some COLORED_LEVEL1) = Ok s /\ render s = Ok cells /\
    map fst cells = side_chars x /\ Forall (under (normalize (str name))) cells.
Proof.
  intros T En H. destruct x as [s|l]; cbn [change_item side_chars] in *.
  - unfold flat_item, branch_of. cbn [subscript bind fst snd]. unfold const. rewrite En. eexists; exists (put s [normalize (str name)]). split; [reflexivity|].
    split; [|split; [apply put_chars|now apply put_under]].
    pose proof (render_run sp emoji normalize [([], Open (str name)); (s, Close)] [] []) as R.
    replace (run_text [([], Open (str name)); (s, Close)] []) with ((91 :: str name ++ [93]) ++ rich_escape s ++ str "[/]") in R.
    2:{ unfold run_text. cbn [flat_map fst snd tag_text]. cbn [rich_escape flat_map app]. rewrite ?app_nil_r, <- ?app_assoc. reflexivity. }
    unfold Rich.render, parse_markup. rewrite R; auto.
    + cbn [ConsoleProofs.run_cells put map app List.tl]. now rewrite app_nil_r.
    + constructor; [apply harmless_run; [apply harmless_nil|exact T]|]. constructor; [apply harmless_run; [exact H|exact I]|constructor].
    + apply no_bs_masked; intros [].
    + split; apply harmless_nil.
    + cbn. exact I.
  - unfold branch_of. cbn [subscript bind fst snd]. unfold const. rewrite En. destruct (side_runs_text l []) as [x [Ex E]]. rewrite Ex. cbn [bind].
    destruct (side_runs_cells (normalize (str name)) l []) as [C U]. destruct (side_runs_ok l [] H) as [F Hw].
    pose proof (side_runs_closes l [] 1 [(snd (side_runs l []), Close)] I) as Cl.
    set (rs := fst (side_runs l []) ++ [(snd (side_runs l []), Close)]) in *.
    pose proof (render_run sp emoji normalize (([], Open (str name)) :: rs) [] []) as R.
    eexists; exists (run_cells rs [] [normalize (str name)]). split; [reflexivity|]. split; [|now split].
    replace (run_text (([], Open (str name)) :: rs) []) with ((91 :: str name ++ [93]) ++ x ++ str "[/]") in R.
    2:{ unfold rs. change (([], Open (str name)) :: fst (side_runs l []) ++ [(snd (side_runs l []), Close)])
          with ([([], Open (str name))] ++ fst (side_runs l []) ++ [(snd (side_runs l []), Close)]).
        rewrite run_text_app, run_text_app. unfold run_text in E |- *. cbn [flat_map fst snd tag_text rich_escape app] in E |- *.
        fold rich_escape in *. rewrite !app_nil_r. rewrite <- E. cbn [app]. f_equal. rewrite <- !app_assoc. reflexivity. }
    unfold Rich.render, parse_markup. rewrite R; auto.
    + constructor; [apply harmless_run; [apply harmless_nil|exact T]|]. unfold rs. apply Forall_app; split; [exact F|].
      constructor; [apply harmless_run; [exact Hw|exact I]|constructor].
    + apply no_bs_masked; intros [].
    + split; apply harmless_nil.
Qed.
Lemma render_plain s : harmless s -> render (rich_escape s) = Ok (put s []).
Proof.
  intros H. pose proof (render_run sp emoji normalize [] s []) as R. unfold run_text in R. cbn [flat_map app] in R.
  unfold Rich.render, parse_markup. rewrite R; auto.
  - apply no_bs_masked, H.
  - split; apply H.
  - exact I.
Qed.

(** a whole stream *)
Definition new_text (l : list mitem) : list Z := flat_map (fun i => match i with MStr s => s | MChange a _ => side_chars a end) l.
Definition old_text (l : list mitem) : list Z := flat_map (fun i => match i with MStr s => s | MChange _ b => side_chars b end) l.
Lemma outside_all g g' cells : Forall (under g) cells -> g <> g' -> outside g' cells = map fst cells.
Proof.
  intros F N. unfold outside. f_equal. induction F as [|c l H F IH]; [reflexivity|]. cbn [filter]. unfold under in H. rewrite H.
  destruct (teq g g') eqn:E; [apply teq_ok in E; tauto|]. cbn [negb]. now rewrite IH.
Qed.
Lemma outside_none g cells : Forall (under g) cells -> outside g cells = [].
Proof.
  intros F. unfold outside. induction F as [|c l H F IH]; [reflexivity|]. cbn [filter]. unfold under in H. rewrite H.
  rewrite (proj2 (teq_ok g g) eq_refl). exact IH.
Qed.
Lemma outside_app g a b : outside g (a ++ b) = outside g a ++ outside g b.
Proof. unfold outside. now rewrite filter_app, map_app. Qed.
Lemma print_cons s l e c : render s = Ok c ->
  print_all sp emoji normalize (s :: l) e = (c ++ fst (print_all sp emoji normalize l e), snd (print_all sp emoji normalize l e)).
Proof. intros H. cbn [print_all]. rewrite H. now destruct (print_all sp emoji normalize l e). Qed.
Lemma green_branch : m_into COLORED_LEVEL0 = branch_of "green4". Proof. reflexivity. Qed.
Lemma red_branch : m_from COLORED_LEVEL0 = branch_of "dark_red". Proof. reflexivity. Qed.
Theorem stream_console n0 n1 l : harmless (new_text l) -> harmless (old_text l) ->
  exists cells, on_console sp emoji normalize (markup_stream rich_escape l COLORED_LEVEL0 (Some COLORED_LEVEL1) n0 n1) = (cells, None) /\
    outside red cells = new_text l /\ outside green cells = old_text l /\
    Forall (fun c => In (outermost c) [[]; green; red]) cells.
Proof.
  unfold on_console. induction l as [|[s|a b] l IH]; intros Hn Ho; cbn [markup_stream new_text old_text flat_map] in *.
  - exists []. repeat split; constructor.
  - fold (new_text l) in *. fold (old_text l) in *.
    destruct IH as [cells [E [N [O F]]]]; [now apply harmless_right in Hn|now apply harmless_right in Ho|].
    cbn [then_print fst snd]. apply harmless_left in Hn. rewrite (print_cons _ _ _ _ (render_plain s Hn)), E. cbn [fst snd].
    exists (put s [] ++ cells). split; [reflexivity|]. rewrite !outside_app, N, O.
    rewrite (outside_all [] red), (outside_all [] green), put_chars; auto; try (now apply put_under).
    repeat split; auto. apply Forall_app; split; [|exact F]. eapply Forall_impl; [|apply (put_under s [] []); reflexivity].
    unfold under. intros c ->. now left.
  - fold (new_text l) in *. fold (old_text l) in *.
    destruct IH as [cells [E [N [O F]]]]; [now apply harmless_right in Hn|now apply harmless_right in Ho|].
    apply harmless_left in Hn, Ho.
    destruct (render_side a "green4" n0 green_tag eq_refl Hn) as [sa [ca [Ea [Ra [Ta Ua]]]]]. fold green in Ua.
    destruct (render_side b "dark_red" n1 red_tag eq_refl Ho) as [sb [cb [Eb [Rb [Tb Ub]]]]]. fold red in Ub.
    rewrite green_branch, red_branch, Ea, Eb. cbn [m_separator COLORED_LEVEL0].
    assert (Z0 : render [] = Ok []) by reflexivity.
    assert (empty : forall x, side_true x = false -> side_chars x = []).
    { intros [[|]|[|]]; cbn; congruence || reflexivity. }
    match goal with |- context[then_print (Ok []) ?r] => set (rest := r) end.
    assert (K : exists cb', print_all sp emoji normalize (fst rest) (snd rest) = (cb' ++ cells, None) /\
        map fst cb' = side_chars b /\ Forall (under red) cb').
    { unfold rest. destruct (side_true b) eqn:Tr.
      - exists cb. cbn [then_print fst snd]. rewrite (print_cons _ _ _ _ Rb), E. repeat split; assumption.
      - exists []. rewrite E, empty by assumption. repeat split; constructor. }
    destruct K as [cb' [K1 [K2 K3]]].
    clearbody rest.
    assert (K' : exists ca', print_all sp emoji normalize (fst (if side_true a then then_print (Ok sa) (then_print (Ok []) rest) else then_print (Ok []) rest))
        (snd (if side_true a then then_print (Ok sa) (then_print (Ok []) rest) else then_print (Ok []) rest)) = (ca' ++ cb' ++ cells, None) /\
        map fst ca' = side_chars a /\ Forall (under green) ca').
    { destruct (side_true a) eqn:Tr; cbn [then_print fst snd].
      - exists ca. rewrite (print_cons _ _ _ _ Ra), (print_cons _ _ _ _ Z0), K1. repeat split; assumption.
      - exists []. rewrite (print_cons _ _ _ _ Z0), K1, empty by assumption. repeat split; constructor. }
    destruct K' as [ca' [K4 [K5 K6]]]. exists (ca' ++ cb' ++ cells). split; [exact K4|].
    rewrite !outside_app, N, O.
    rewrite (outside_all green red ca'), (outside_none green ca'), (outside_none red cb'), (outside_all red green cb') by auto.
    rewrite K2, K5. repeat split; auto. apply Forall_app; split; [|apply Forall_app; split; [|exact F]].
    + eapply Forall_impl; [|exact K6]. unfold under. intros c ->. cbn; auto.
    + eapply Forall_impl; [|exact K3]. unfold under. intros c ->. cbn; auto.
Qed.
End Chunks.

Section Cli.
Variable sp : Z -> bool.
Variable emoji : list Z -> option (list Z).
Variable normalize : list Z -> list Z.
Let green := normalize (str "green4").
Let red := normalize (str "dark_red").
Hypothesis GR : green <> red.
Hypothesis G0 : green <> [].
Hypothesis R0 : red <> [].
Variable re_w space : Z -> bool.

Lemma flat_new d : new_text (flat_stream d) = diff_after d.
Proof. unfold new_text, flat_stream, diff_after. rewrite flat_map_concat_map, map_map, <- flat_map_concat_map. apply flat_map_ext. now intros []. Qed.
Lemma flat_old d : old_text (flat_stream d) = diff_before d.
Proof. unfold old_text, flat_stream, diff_before. rewrite flat_map_concat_map, map_map, <- flat_map_concat_map. apply flat_map_ext. now intros []. Qed.
Lemma line_new d : new_text (line_stream d) = into_text d.
Proof. unfold new_text, line_stream, into_text. rewrite flat_map_concat_map, map_map, <- flat_map_concat_map. apply flat_map_ext. now intros []. Qed.
Lemma line_old d : old_text (line_stream d) = from_text d.
Proof. unfold old_text, line_stream, from_text. rewrite flat_map_concat_map, map_map, <- flat_map_concat_map. apply flat_map_ext. now intros []. Qed.
Lemma display_console o allow l n0 n1 : o_output o = false -> o_git o = false -> o_strikeout o = false \/ allow = false ->
  harmless sp emoji (diff_after l) -> harmless sp emoji (diff_before l) -> no_text_twice (visible l) ->
  exists cells tail, on_console sp emoji normalize (display space o (snd (get_markup_style o allow initial_styles)) l n0 n1 None) = (cells, None) /\
    (tail = [] \/ o_show_lines o = true /\ tail = [10]) /\
    outside red cells = diff_after l ++ tail /\ outside green cells = diff_before l ++ tail /\
    Forall (fun c => In (outermost c) [[]; green; red]) cells /\
    (alternating (visible l) -> tail = if o_show_lines o then last_newline (diff_after l) (diff_before l) else []).
Proof.
  intros O G St Ha Hb N. unfold get_markup_style, display, shown, escape_of, markup_changes.
  assert (o_strikeout o && allow = false) as -> by (destruct St as [-> | ->]; [reflexivity|apply andb_false_r]).
  rewrite O, G. cbn [snd fst git0 colored0 plain1 colored1 initial_styles orb]. rewrite orb_false_r.
  destruct (o_show_lines o) eqn:Sl.
  - destruct (consolidated_texts space l N) as [d [tail [E [T [I F]]]]]. rewrite E. cbn [bind].
    assert (Hn : forall s, harmless sp emoji s -> harmless sp emoji (s ++ tail)).
    { intros s H. destruct T as [-> | ->]; [now rewrite app_nil_r|now apply harmless_nl]. }
    destruct (stream_console sp emoji normalize GR G0 R0 (Some n0) (Some n1) (line_stream d)) as [cells [K1 [K2 [K3 K4]]]].
    { rewrite line_new, I. auto. } { rewrite line_old, F. auto. }
    exists cells, tail. rewrite line_new in K2. rewrite line_old in K3. rewrite I in K2. rewrite F in K3.
    repeat (split; [now auto|] || split); auto; [destruct T; auto|]. intros A.
    destruct (consolidated_tail space l A) as [d' [E' [I' _]]]. rewrite E in E'. injection E' as <-. rewrite I in I'.
    now apply app_inv_head in I'.
  - cbn [bind]. destruct (stream_console sp emoji normalize GR G0 R0 (Some n0) (Some n1) (flat_stream l)) as [cells [K1 [K2 [K3 K4]]]].
    { now rewrite flat_new. } { now rewrite flat_old. }
    exists cells, []. rewrite !app_nil_r. rewrite flat_new in K2. rewrite flat_old in K3. repeat split; auto.
Qed.
Theorem diff_console o original modified n0 n1 : o_output o = false -> o_git o = false -> o_strikeout o = false ->
  real_text original -> real_text modified -> harmless sp emoji original -> harmless sp emoji modified ->
  let tail := if o_show_lines o then last_newline modified original else [] in
  exists cells, on_console sp emoji normalize (snd (diff_cli re_w space o original modified n0 n1 initial_styles)) = (cells, None) /\
    outside red cells = modified ++ tail /\ outside green cells = original ++ tail /\
    Forall (fun c => In (outermost c) [[]; green; red]) cells.
Proof.
  intros O G St Ro Rm Ho Hm. unfold diff_cli.
  destruct (diff_stream re_w (tokenizer_of o) original modified Ro Rm) as [d [E [B [A Al]]]].
  destruct (display_console o true (map as_ditem d) (escape_of o n1) (escape_of o n0) O G (or_introl St)) as [cells [tail [K1 [K2 [K3 [K4 [K5 K6]]]]]]].
  { now rewrite A. } { now rewrite B. } { now apply alternating_texts. }
  destruct (get_markup_style o true initial_styles) as [g style]. rewrite E. cbn [snd] in *.
  exists cells. rewrite A, B in *. rewrite <- (K6 Al). auto.
Qed.
Lemma as_after m : diff_after (map as_ditem m) = text_after m.
Proof. unfold diff_after, text_after. induction m as [|[x|x y] m IH]; cbn; congruence. Qed.
Lemma as_before m : diff_before (map as_ditem m) = text_before m.
Proof. unfold diff_before, text_before. induction m as [|[x|x y] m IH]; cbn; congruence. Qed.
Theorem merge_console o p c t pn cn tn m : o_output o = false -> o_git o = false -> o_diff o = false ->
  real_text p -> real_text c -> real_text t -> merge_result re_w o p c t = Ok m ->
  harmless sp emoji (text_after m) -> harmless sp emoji (text_before m) ->
  exists cells tail, on_console sp emoji normalize (snd (merge_cli re_w space o p c t pn cn tn initial_styles)) = (cells, None) /\
    (tail = [] \/ o_show_lines o = true /\ tail = [10]) /\
    outside red cells = text_after m ++ tail /\ outside green cells = text_before m ++ tail /\
    Forall (fun c => In (outermost c) [[]; green; red]) cells.
Proof.
  intros O G Df Rp Rc Rt Em Ha Hb.
  destruct (merge_cli_run re_w space o p c t pn cn tn initial_styles Df Rp Rc Rt) as [m' [Em' R]].
  rewrite Em in Em'; injection Em' as <-. rewrite R.
  destruct (merge_stream re_w o p c t Rp Rc Rt) as [m' [Em' N]]. rewrite Em in Em'; injection Em' as <-.
  rewrite <- as_after in *. rewrite <- as_before in *.
  destruct (display_console o false (map as_ditem m) cn tn O G (or_intror eq_refl) Ha Hb N) as [cells [tail K]].
  exists cells, tail. tauto.
Qed.
End Cli.

Theorem plain_console sp emoji normalize s : ~ masked s -> no_control s -> ~ has_emoji sp emoji s ->
  render sp emoji normalize (rich_escape s) = Ok (put s []).
Proof.
  intros M A B. pose proof (render_run sp emoji normalize [] s []) as R. unfold run_text in R. cbn [flat_map app] in R.
  unfold render, parse_markup. rewrite R; auto; [now split|exact I].
Qed.

(** computed cases *)
Ltac no_codes := repeat (apply Forall_cons; [cbn; lia|]); apply Forall_nil.
Theorem tag_lost : exists s cells, no_control s /\ console_diff s s = (cells, None) /\ map fst cells <> s.
Proof. exists (str "\[a]"). eexists. split; [no_codes|]. split; [vm_compute; reflexivity|]. vm_compute. discriminate. Qed.
Theorem closing_fails : exists s, no_control s /\ snd (console_diff s s) = Some MarkupError.
Proof. exists (str "\[/a]"). split; [no_codes|vm_compute; reflexivity]. Qed.
Theorem suffix_shown : exists s t cells, no_control s /\ no_control t /\ console_diff s t = (cells, None) /\
  t = s ++ str "\" /\ map fst cells = s ++ str "[/]".
Proof.
  exists (str "a"), (str "a\"). eexists. split; [no_codes|]. split; [no_codes|]. split; [vm_compute; reflexivity|].
  split; vm_compute; reflexivity.
Qed.
Theorem emoji_replaced : exists s cells, no_control s /\ ~ In 92 s /\ console_diff s s = (cells, None) /\ map fst cells <> s.
Proof.
  exists (str "a:smile:b"). eexists. split; [no_codes|]. split; [cbn; lia|]. split; [vm_compute; reflexivity|]. vm_compute. discriminate.
Qed.
Theorem control_lost : exists s cells, ~ In 92 s /\ ~ In 58 s /\ console_diff s s = (cells, None) /\ map fst cells <> s.
Proof.
  exists [97; 12; 98]. eexists. split; [cbn; lia|]. split; [cbn; lia|]. split; [vm_compute; reflexivity|]. vm_compute. discriminate.
Qed.
(** checking concrete texts *)
Lemma no_emoji_check sp emoji s :
  forallb (fun i => forallb (fun j => match emoji (firstn j (skipn i s)) with None => true | Some _ => false end)
                      (seq 0 (S (length s)))) (seq 0 (S (length s))) = true -> ~ has_emoji sp emoji s.
Proof.
  intros H [u [n [v [w [E [_ [_ N]]]]]]]. rewrite forallb_forall in H.
  assert (L : (length s = length u + (1 + (length n + (length v + (1 + length w)))))%nat) by (rewrite E, !app_length; reflexivity).
  specialize (H (length (u ++ [58]))). rewrite forallb_forall in H.
  assert (emoji n = None); [|tauto].
  specialize (fun a => H a (length n)).
  replace (skipn (length (u ++ [58])) s) with (n ++ v ++ [58] ++ w) in H.
  2:{ rewrite E, (app_assoc u). rewrite skipn_app, Nat.sub_diag, skipn_all. reflexivity. }
  replace (firstn (length n) (n ++ v ++ [58] ++ w)) with n in H.
  2:{ rewrite firstn_app, Nat.sub_diag, firstn_all. now rewrite app_nil_r. }
  destruct (emoji n); [|reflexivity]. discriminate H; apply in_seq; rewrite ?app_length; cbn; lia.
Qed.
Lemma to_close_exists t : forall r, ~ In 91 t -> to_close (t ++ 93 :: r) <> None.
Proof.
  induction t as [|c t IH]; intros r H; cbn; [discriminate|]. cbn in H. destruct (Z.eqb_spec c 93); [discriminate|].
  destruct (Z.eqb_spec c 91); [tauto|]. assert (K : ~ In 91 t) by tauto. specialize (IH r K).
  destruct (to_close (t ++ 93 :: r)) as [[]|]; [discriminate|tauto].
Qed.
Lemma masked_check s : forallb (fun i => match skipn i s with
    | c :: v => negb (c =? 92) || match tag_at v with None => true | Some _ => false end
    | [] => true end) (seq 0 (length s)) = true -> ~ masked s.
Proof.
  intros H [u [v [E [c [t [r [-> [S0 A]]]]]]]]. rewrite forallb_forall in H. specialize (H (length u)).
  rewrite E in H at 2. rewrite skipn_app, Nat.sub_diag, skipn_all in H. cbn [app skipn] in H.
  apply tag_start_iff in S0. unfold tag_at in H. rewrite S0 in H. cbn [Z.eqb Pos.eqb negb andb orb] in H.
  pose proof (to_close_exists t r A) as K. destruct (to_close (t ++ 93 :: r)) as [[]|]; [|tauto].
  discriminate H. apply in_seq. rewrite E, app_length. cbn. lia.
Qed.
