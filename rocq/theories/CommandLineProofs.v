(** Proofs about the command lines. *)
From Coq Require Import String.
From Verif Require Import Base Changesets Tokenizers Lines Markup Rich Files CommandLine SpecCommandLine.
Local Open Scope Z_scope.
Local Open Scope list_scope.

(** * Small facts *)
Lemma starts_prefix p s : starts_with p s = true <-> prefix p s.
Proof.
  revert s; induction p as [|x p IH]; intros s; cbn [starts_with].
  - split; [exists s; reflexivity|reflexivity].
  - destruct s as [|y s]; [split; [discriminate|intros [r Q]; discriminate]|].
    rewrite andb_true_iff, Z.eqb_eq, IH. split.
    + intros [-> [r ->]]. exists r. reflexivity.
    + intros [r Q]. injection Q as -> ->. split; [reflexivity|exists r; reflexivity].
Qed.
Lemma split_some s a b : split_equals s = Some (a, b) <-> s = a ++ 61 :: b /\ ~ In 61 a.
Proof.
  revert a b; induction s as [|c s IH]; intros a b; cbn [split_equals].
  - split; [discriminate|]. intros [Q _]. destruct a; discriminate.
  - destruct (c =? 61) eqn:E; [apply Z.eqb_eq in E; subst c|apply Z.eqb_neq in E].
    + split.
      * intros Q. injection Q as <- <-. split; [reflexivity|intros []].
      * intros [Q N]. destruct a as [|x a]; [injection Q as <-; reflexivity|].
        injection Q as <- _. exfalso. apply N. left. reflexivity.
    + destruct (split_equals s) as [[a' b']|] eqn:S.
      * destruct (IH a' b') as [H _]. specialize (H eq_refl) as [-> N]. split.
        -- intros Q. injection Q as <- <-. split; [reflexivity|]. intros [J|J]; [congruence|contradiction].
        -- intros [Q M]. destruct a as [|x a]; [injection Q; congruence|]. injection Q as <- Q.
           destruct (IH a b) as [_ H]. rewrite H in IH; [|split; [exact Q|intros J; apply M; right; exact J]].
           assert (W : Some (a', b') = Some (a, b)) by (rewrite H; [reflexivity|split; [exact Q|intros J; apply M; right; exact J]]).
           injection W as -> ->. reflexivity.
      * split; [discriminate|]. intros [Q M]. destruct a as [|x a]; [injection Q; congruence|]. injection Q as <- Q.
        destruct (IH a b) as [_ H]. discriminate H. split; [exact Q|]. intros J; apply M; right; exact J.
Qed.
Lemma split_none s : split_equals s = None <-> ~ In 61 s.
Proof.
  split.
  - intros H J. apply in_split in J as (a & b & ->). revert H. induction a as [|x a IH]; cbn [app split_equals].
    + rewrite Z.eqb_refl. discriminate.
    + destruct (x =? 61); [discriminate|]. destruct (split_equals (a ++ 61 :: b)) as [[? ?]|]; [discriminate|auto].
  - intros N. destruct (split_equals s) as [[a b]|] eqn:S; [|reflexivity]. apply split_some in S as [-> _].
    exfalso. apply N. apply in_or_app. right. left. reflexivity.
Qed.
Lemma chomp_cases s t : chomp s = t -> s = t \/ s = t ++ [10].
Proof.
  unfold chomp. intros <-. destruct (rev s) as [|c r] eqn:E; [auto|]. destruct (c =? 10) eqn:C; [|auto].
  right. apply Z.eqb_eq in C; subst c. rewrite <- (rev_involutive s), E. reflexivity.
Qed.
Lemma digits_iff digit t : digits digit t = true <-> all_digits digit t.
Proof.
  unfold digits, all_digits. rewrite andb_true_iff, forallb_forall, Forall_forall. destruct t; cbn [nonempty]; split; intros [A B]; split; auto; congruence.
Qed.
Lemma decimal_iff digit t : digit 46 = false -> (decimal digit t = true <->
  exists u v, t = u ++ 46 :: v /\ Forall (fun c => digit c = true) u /\ all_digits digit v).
Proof.
  intros D. induction t as [|c t IH]; cbn [decimal].
  - split; [discriminate|]. intros (u & v & Q & _). destruct u; discriminate.
  - destruct (c =? 46) eqn:E.
    + apply Z.eqb_eq in E; subst c. rewrite digits_iff. split.
      * intros A. exists [], t. auto.
      * intros (u & v & Q & F & A). destruct u as [|x u]; [injection Q as ->; exact A|]. injection Q as <- _. inversion F; congruence.
    + rewrite andb_true_iff, IH. apply Z.eqb_neq in E. split.
      * intros (A & u & v & -> & F & B). exists (c :: u), v. repeat split; auto; apply B.
      * intros (u & v & Q & F & B). destruct u as [|x u]; [injection Q; congruence|]. injection Q as <- ->. inversion F; subst. split; [assumption|]. exists u, v. auto.
Qed.
Lemma number_iff digit s : digit_ok digit -> (negative_number digit s = true <-> number_like digit s).
Proof.
  intros [D N]. unfold negative_number, number_like. split.
  - destruct (chomp s) as [|c r] eqn:C; [discriminate|]. intros H. apply andb_true_iff in H as [E H]. apply Z.eqb_eq in E; subst c.
    apply chomp_cases in C. exists r. split; [exact C|].
    apply orb_true_iff in H as [H|H]; [left; apply digits_iff; exact H|right; apply decimal_iff; assumption].
  - intros (t & Q & H).
    assert (L : exists u z, t = u ++ [z] /\ digit z = true).
    { assert (G : forall v, all_digits digit v -> exists u z, v = u ++ [z] /\ digit z = true).
      { intros v [NE F]. destruct (exists_last NE) as (u & z & ->). exists u, z. split; [reflexivity|].
        rewrite Forall_forall in F. apply F, in_or_app. right. left. reflexivity. }
      destruct H as [H|(u & v & -> & _ & H)]; [exact (G t H)|]. destruct (G v H) as (u' & z & -> & Z).
      exists (u ++ 46 :: u'), z. rewrite <- app_assoc. auto. }
    assert (C : chomp s = 45 :: t).
    { unfold chomp. destruct Q as [-> | ->].
      - destruct L as (u & z & -> & Z). change (45 :: u ++ [z]) with ((45 :: u) ++ [z]). rewrite rev_app_distr. cbn [rev app].
        destruct (z =? 10) eqn:E; [apply Z.eqb_eq in E; congruence|reflexivity].
      - change (45 :: t ++ [10]) with ((45 :: t) ++ [10]). rewrite rev_app_distr. cbn [rev app]. rewrite Z.eqb_refl.
        change (rev (rev (45 :: t)) = 45 :: t). apply rev_involutive. }
    rewrite C, Z.eqb_refl. cbn [andb]. apply orb_true_iff. destruct H as [H|H]; [left; apply digits_iff; exact H|right; apply decimal_iff; assumption].
Qed.
Lemma in_space s : existsb (Z.eqb 32) s = true <-> In 32 s.
Proof.
  rewrite existsb_exists. split; [intros (x & J & Q); apply Z.eqb_eq in Q; subst; exact J|].
  intros J. exists 32. auto.
Qed.

(** * One argument *)
Section One.
Variable digit : Z -> bool.
Variable c : command.
Hypothesis DO : digit_ok digit.

Definition letter_action (x : Z) : option action :=
  if x =? 104 then Some AHelp else if x =? 111 then Some AOutput
  else if x =? 99 then Some (AFlag FCharacters) else if x =? 119 then Some (AFlag FWords) else if x =? 108 then Some (AFlag FLines)
  else if x =? 76 then Some (AFlag FShowLines) else if x =? 103 then Some (AFlag FGit) else if x =? 115 then Some (AFlag FStrikeout)
  else if c_diff c && (x =? 100) then Some (AFlag FDiff) else None.
Definition long_table : dict (list Z) action :=
  [(str "help", AHelp); (str "output", AOutput); (str "characters", AFlag FCharacters); (str "words", AFlag FWords);
   (str "lines", AFlag FLines); (str "show-lines", AFlag FShowLines); (str "git-compatible", AFlag FGit); (str "strikeout", AFlag FStrikeout)]
  ++ (if c_diff c then [(str "diff", AFlag FDiff)] else []).

Lemma letter_cases x a : letter_action x = Some a <->
  x = 104 /\ a = AHelp \/ x = 111 /\ a = AOutput \/ exists f, has c f /\ x = letter f /\ a = AFlag f.
Proof.
  unfold letter_action. split.
  - repeat match goal with |- context [if ?b then _ else _] => destruct b eqn:? end;
      repeat match goal with H : _ && _ = true |- _ => apply andb_true_iff in H as [? ?] end;
      try discriminate;
      intros Q; injection Q as <-;
      repeat match goal with H : (x =? _) = true |- _ => apply Z.eqb_eq in H end; subst; auto;
      right; right; match goal with |- exists f, _ /\ _ /\ AFlag ?g = _ => exists g end; (split; [unfold has; intros; congruence|split; reflexivity]).
  - intros [[-> ->]|[[-> ->]|(f & H & -> & ->)]]; [reflexivity..|]. destruct f; try reflexivity.
    cbn. rewrite (H eq_refl). reflexivity.
Qed.

Lemma long_names n : is_name c n <-> In n (dkeys long_table).
Proof.
  unfold is_name, long_table, dkeys. rewrite map_app, in_app_iff. split.
  - intros [->|[->|(f & H & ->)]]; [left; cbn; tauto..|].
    destruct f; try (left; cbn; tauto). right. rewrite (H eq_refl). cbn. auto.
  - intros [H|H].
    + cbn [map fst In] in H. repeat (destruct H as [<-|H]); [tauto|tauto|..|destruct H];
        right; right; match goal with |- exists f, _ /\ ?s = _ => idtac end.
      * exists FCharacters. split; [intros Q; discriminate|reflexivity].
      * exists FWords. split; [intros Q; discriminate|reflexivity].
      * exists FLines. split; [intros Q; discriminate|reflexivity].
      * exists FShowLines. split; [intros Q; discriminate|reflexivity].
      * exists FGit. split; [intros Q; discriminate|reflexivity].
      * exists FStrikeout. split; [intros Q; discriminate|reflexivity].
    + destruct (c_diff c) eqn:E; [|destruct H]. destruct H as [<-|[]]. right. right. exists FDiff. split; [intros _; exact E|reflexivity].
Qed.
Lemma long_action n a : In (n, a) long_table <->
  n = str "help" /\ a = AHelp \/ n = str "output" /\ a = AOutput \/ exists f, has c f /\ n = name f /\ a = AFlag f.
Proof.
  unfold long_table. rewrite in_app_iff. split.
  - intros [H|H].
    + cbn [In] in H. repeat (destruct H as [H|H]; [injection H as <- <-|]); [tauto|tauto|..|destruct H]; right; right;
        match goal with |- exists f, _ /\ _ /\ AFlag ?g = _ => exists g end; (split; [intros Q; discriminate|split; reflexivity]).
    + destruct (c_diff c) eqn:E; [|destruct H]. destruct H as [H|[]]. injection H as <- <-. right. right. exists FDiff.
      split; [intros _; exact E|split; reflexivity].
  - intros [[-> ->]|[[-> ->]|(f & H & -> & ->)]]; [left; cbn; tauto..|].
    destruct f; try (left; cbn; tauto). right. rewrite (H eq_refl). cbn. auto.
Qed.
Lemma long_nodup : NoDup (dkeys long_table).
Proof.
  unfold long_table. destruct (c_diff c); cbn;
  repeat (apply NoDup_cons; [cbn; intros J; repeat (destruct J as [J|J]; [discriminate|]); exact J|]); apply NoDup_nil.
Qed.
Lemma table_nodup : NoDup (dkeys (option_strings c)).
Proof.
  unfold option_strings. destruct (c_diff c); cbn;
  repeat (apply NoDup_cons; [cbn; intros J; repeat (destruct J as [J|J]; [discriminate|]); exact J|]); apply NoDup_nil.
Qed.
(** the table is made of letters after one dash and of names after two *)
Lemma table_entries s a : In (s, a) (option_strings c) <->
  (exists x, s = [45; x] /\ letter_action x = Some a) \/ (exists n, s = 45 :: 45 :: n /\ In (n, a) long_table).
Proof.
  unfold option_strings. rewrite in_app_iff. split.
  - intros [H|H].
    + cbn [In] in H.
      repeat (destruct H as [H|H]; [injection H as <- <-; first
        [left; eexists; split; [reflexivity|reflexivity] | right; eexists; split; [reflexivity|unfold long_table; apply in_or_app; left; cbn; tauto]]|]).
      destruct H.
    + destruct (c_diff c) eqn:E; [|destruct H]. destruct H as [H|[H|[]]]; injection H as <- <-.
      * left. exists 100. split; [reflexivity|]. unfold letter_action. rewrite E. reflexivity.
      * right. eexists. split; [reflexivity|]. unfold long_table. rewrite E. cbn. tauto.
  - intros [(x & -> & H)|(n & -> & H)].
    + apply letter_cases in H as [[-> ->]|[[-> ->]|(f & H & -> & ->)]]; [left; cbn; tauto..|].
      destruct f; try (left; cbn; tauto). right. rewrite (H eq_refl). cbn. auto.
    + apply long_action in H as [[-> ->]|[[-> ->]|(f & H & -> & ->)]]; [left; cbn; tauto..|].
      destruct f; try (left; cbn; tauto). right. rewrite (H eq_refl). cbn. auto.
Qed.
Lemma dget_letter x : x <> 45 -> dget (option_strings c) [45; x] = letter_action x.
Proof.
  intros N. destruct (letter_action x) as [a|] eqn:L.
  - apply In_dget; [apply table_nodup|]. apply table_entries. left. eauto.
  - destruct (dget _ _) as [a|] eqn:G; [|reflexivity]. apply dget_In, table_entries in G as [(y & Q & H)|(n & Q & _)]; [|congruence].
    injection Q as ->. congruence.
Qed.
Lemma dget_short_none x y r : x <> 45 -> dget (option_strings c) (45 :: x :: y :: r) = None.
Proof.
  intros N. destruct (dget _ _) as [a|] eqn:G; [|reflexivity]. apply dget_In, table_entries in G as [(z & Q & H)|(n & Q & _)]; congruence.
Qed.
Lemma dget_long n : dget (option_strings c) (45 :: 45 :: n) = dget long_table n.
Proof.
  destruct (dget long_table n) as [a|] eqn:L.
  - apply In_dget; [apply table_nodup|]. apply table_entries. right. exists n. split; [reflexivity|]. apply dget_In. exact L.
  - destruct (dget (option_strings c) _) as [a|] eqn:G; [|reflexivity]. apply dget_In, table_entries in G as [(y & Q & H)|(m & Q & H)].
    + injection Q as Q1 Q2. subst. unfold letter_action in H. cbn in H. destruct (c_diff c); discriminate.
    + injection Q as <-. apply (In_dget _ _ _ long_nodup) in H. congruence.
Qed.

Definition rest (s : list Z) : class := if negative_number digit s || existsb (Z.eqb 32) s then CArgument else CUnknown.
Lemma flat_dget {V B} (l : dict (list Z) V) k (g : list Z * V -> B) : NoDup (dkeys l) ->
  flat_map (fun e => if teq (fst e) k then [g e] else []) l = match dget l k with Some a => [g (k, a)] | None => [] end.
Proof.
  induction l as [|[k' v] l IH]; intros ND; [reflexivity|]. cbn [flat_map dget fst]. inversion ND as [|? ? NI ND']; subst.
  destruct (teq_spec k' k) as [->|N]; [|apply IH; exact ND'].
  cbn [app]. f_equal. clear -NI. induction l as [|[k' v'] l IH]; [reflexivity|]. cbn [flat_map fst].
  destruct (teq_spec k' k) as [->|N]; [exfalso; apply NI; left; reflexivity|]. apply IH. intros J; apply NI; right; exact J.
Qed.
Lemma flat_map_in {A B} (f g : A -> list B) l : (forall x, In x l -> f x = g x) -> flat_map f l = flat_map g l.
Proof. induction l as [|a l IH]; intros H; [reflexivity|]. cbn [flat_map]. rewrite H by (left; reflexivity). rewrite IH; [reflexivity|]. intros; apply H; right; assumption. Qed.
Lemma classify_short x r : x <> 45 -> classify digit c (45 :: x :: r) =
  match letter_action x with
  | None => rest (45 :: x :: r)
  | Some a => COption a true (match r with [] => None | y :: r' => Some (if y =? 61 then (true, r') else (false, r)) end)
  end.
Proof.
  intros N. unfold classify. change (negb (45 =? 45)) with false. cbn iota.
  assert (SH : short (45 :: x :: r) = true) by (cbn [short]; apply Z.eqb_neq in N; rewrite N; reflexivity).
  assert (U : letter_action x = None \/ r <> [] -> classify_unknown digit c (45 :: x :: r) =
    match letter_action x with None => rest (45 :: x :: r) | Some a => COption a true (Some (false, r)) end).
  { intros NE. unfold classify_unknown, option_tuples. rewrite SH. cbn [firstn skipn].
    rewrite (flat_map_in _ (fun e => if teq (fst e) [45; x] then [COption (snd e) true (Some (false, r))] else [])).
    2: { intros [k a] J. cbn [fst snd]. destruct (teq_spec k [45; x]) as [->|K]; [reflexivity|].
         destruct (starts_with (45 :: x :: r) k) eqn:SW; [|reflexivity]. exfalso. apply starts_prefix in SW as [q Q].
         apply table_entries in J as [(y & -> & H)|(n & -> & H)]; [|injection Q; congruence].
         injection Q as -> Q. destruct r; [|discriminate]. congruence. }
    rewrite (flat_dget (option_strings c) [45; x] (fun e => COption (snd e) true (Some (false, r))) table_nodup), dget_letter by exact N.
    destruct (letter_action x); reflexivity. }
  destruct r as [|y r].
  - rewrite dget_letter by exact N. destruct (letter_action x) eqn:L; [rewrite SH; reflexivity|].
    destruct (split_equals [45; x]) as [[o z]|] eqn:SE; [|apply U; auto].
    apply split_some in SE as [Q M]. assert (dget (option_strings c) o = None) as ->; [|apply U; auto].
    destruct o as [|o1 [|o2 o]]; [discriminate| |destruct o; discriminate].
    destruct (dget _ _) as [a|] eqn:G; [|reflexivity]. apply dget_In, table_entries in G as [(? & Q' & _)|(? & Q' & _)]; discriminate.
  - rewrite dget_short_none by exact N.
    destruct (split_equals (45 :: x :: y :: r)) as [[o z]|] eqn:SE.
    + apply split_some in SE as [Q M]. destruct o as [|o1 [|o2 o]]; [discriminate| |].
      * injection Q as <- -> _. assert (dget (option_strings c) [45] = None) as ->; [|].
        { destruct (dget _ _) as [a|] eqn:G; [|reflexivity]. apply dget_In, table_entries in G as [(? & Q' & _)|(? & Q' & _)]; discriminate. }
        change (letter_action 61) with (if c_diff c && false then Some (AFlag FDiff) else None) in *. rewrite andb_false_r in *.
        apply U. auto.
      * destruct o as [|o3 o].
        -- injection Q as <- <- -> ->. rewrite Z.eqb_refl, dget_letter by exact N. destruct (letter_action x) eqn:L.
           ++ destruct (short [45; x]) eqn:S2; [reflexivity|]. cbn [short] in S2, SH. congruence.
           ++ apply U; auto.
        -- injection Q as <- <- <- _. rewrite dget_short_none by exact N.
           assert (Y : y =? 61 = false) by (apply Z.eqb_neq; intros ->; apply M; cbn; auto). rewrite Y.
           rewrite U by (right; discriminate). reflexivity.
    + apply split_none in SE. assert (Y : y =? 61 = false) by (apply Z.eqb_neq; intros ->; apply SE; cbn; auto). rewrite Y.
      rewrite U by (right; discriminate). reflexivity.
Qed.

Definition rows : list (Z * list Z * action) :=
  [(104, str "help", AHelp); (111, str "output", AOutput); (99, str "characters", AFlag FCharacters); (119, str "words", AFlag FWords);
   (108, str "lines", AFlag FLines); (76, str "show-lines", AFlag FShowLines); (103, str "git-compatible", AFlag FGit); (115, str "strikeout", AFlag FStrikeout)]
  ++ (if c_diff c then [(100, str "diff", AFlag FDiff)] else []).
Lemma table_rows : option_strings c = flat_map (fun e => [([45; fst (fst e)], snd e); (45 :: 45 :: snd (fst e), snd e)]) rows.
Proof. unfold option_strings, rows. destruct (c_diff c); reflexivity. Qed.
Lemma long_rows : long_table = map (fun e => (snd (fst e), snd e)) rows.
Proof. unfold long_table, rows. destruct (c_diff c); reflexivity. Qed.
Lemma rows_letters : Forall (fun e => fst (fst e) <> 45) rows.
Proof. unfold rows. destruct (c_diff c); cbn; repeat (apply Forall_cons; [cbn; discriminate|]); apply Forall_nil. Qed.
Definition matches (p : list Z) : dict (list Z) action := filter (fun e => starts_with p (fst e)) long_table.
Lemma long_tuples p x :
  flat_map (fun e => if starts_with (45 :: 45 :: p) (fst e) then [COption (snd e) (short (fst e)) x] else []) (option_strings c)
  = map (fun e => COption (snd e) false x) (matches p).
Proof.
  unfold matches. rewrite table_rows, long_rows. pose proof rows_letters as F. induction rows as [|[[y n] a] l IH]; [reflexivity|].
  inversion F as [|? ? N F']; subst. cbn [fst snd] in N. specialize (IH F').
  cbn [flat_map map app fst snd filter]. revert IH. generalize (flat_map (fun e => if starts_with (45 :: 45 :: p) (fst e) then [COption (snd e) (short (fst e)) x] else [])
    (flat_map (fun e : Z * list Z * action => [([45; fst (fst e)], snd e); (45 :: 45 :: snd (fst e), snd e)]) l)). intros T ->.
  cbn [starts_with]. rewrite Z.eqb_refl. cbn [andb]. assert (45 =? y = false) as -> by (apply Z.eqb_neq; congruence). cbn [andb app].
  cbn [short]. rewrite Z.eqb_refl. cbn [negb]. destruct (starts_with p n); reflexivity.
Qed.
Lemma matches_exact n a : dget long_table n = Some a -> matches n = [(n, a)].
Proof.
  intros H. apply dget_In, long_action in H. unfold matches, long_table.
  destruct H as [[-> ->]|[[-> ->]|(f & H & -> & ->)]]; [destruct (c_diff c); reflexivity..|].
  destruct f; try (destruct (c_diff c); reflexivity). rewrite (H eq_refl). reflexivity.
Qed.
Lemma names_plain n a : In (n, a) long_table -> ~ In 61 n.
Proof.
  intros H. apply long_action in H. intros J.
  destruct H as [[-> ->]|[[-> ->]|(f & H & -> & ->)]]; [| |destruct f]; cbn [In] in J;
    revert J; vm_compute; intros J; repeat (destruct J as [J|J]; [discriminate|]); exact J.
Qed.
Definition cut (r : list Z) : list Z * option (bool * list Z) :=
  match split_equals r with Some (p, x) => (p, Some (true, x)) | None => (r, None) end.
Lemma classify_long r : classify digit c (45 :: 45 :: r) =
  let '(p, x) := cut r in
  match matches p with [] => rest (45 :: 45 :: r) | [e] => COption (snd e) false x | _ => CAmbiguous end.
Proof.
  unfold classify. change (negb (45 =? 45)) with false. cbn iota. rewrite dget_long.
  assert (SP : split_equals (45 :: 45 :: r) = match split_equals r with Some (p, x) => Some (45 :: 45 :: p, x) | None => None end).
  { cbn [split_equals]. change (45 =? 61) with false. cbn iota. destruct (split_equals r) as [[? ?]|]; reflexivity. }
  rewrite SP.
  assert (U : classify_unknown digit c (45 :: 45 :: r) = let '(p, x) := cut r in
    match matches p with [] => rest (45 :: 45 :: r) | [e] => COption (snd e) false x | _ => CAmbiguous end).
  { unfold classify_unknown, option_tuples. change (short (45 :: 45 :: r)) with false. cbn iota. rewrite SP. unfold cut.
    destruct (split_equals r) as [[p x]|]; rewrite long_tuples; (destruct (matches _) as [|e [|e' l]]; reflexivity). }
  destruct (dget long_table r) as [a|] eqn:G.
  - assert (NE : split_equals r = None) by (apply split_none; apply (names_plain r a); apply dget_In; exact G).
    unfold cut. rewrite NE. rewrite (matches_exact _ _ G). reflexivity.
  - destruct (split_equals r) as [[p x]|] eqn:SE; [|exact U]. rewrite dget_long.
    destruct (dget long_table p) as [a|] eqn:GP; [|exact U]. unfold cut. rewrite SE, (matches_exact _ _ GP). reflexivity.
Qed.
Lemma matches_one p n a : matches p = [(n, a)] <-> In (n, a) long_table /\ prefix p n /\ forall n', is_name c n' -> prefix p n' -> n' = n.
Proof.
  unfold matches. split.
  - intros H. assert (J : In (n, a) (filter (fun e => starts_with p (fst e)) long_table)) by (rewrite H; left; reflexivity).
    apply filter_In in J as [J P]. split; [exact J|]. split; [apply starts_prefix; exact P|].
    intros n' L Q. apply long_names in L. apply in_map_iff in L as ([m b] & <- & L). cbn [fst] in *.
    assert (K : In (m, b) (filter (fun e => starts_with p (fst e)) long_table)) by (apply filter_In; split; [exact L|apply starts_prefix; exact Q]).
    rewrite H in K. destruct K as [K|[]]. congruence.
  - intros (J & P & U). pose proof long_nodup as ND.
    assert (U' : forall m b, In (m, b) long_table -> starts_with p m = true -> m = n).
    { intros m b K S. apply U; [|apply starts_prefix; exact S]. apply long_names. apply (in_map fst) in K. exact K. }
    clear U. apply starts_prefix in P. revert ND J U'. generalize long_table as l. induction l as [|[m b] l IH]; intros ND J U'; [destruct J|].
    cbn [dkeys map fst] in ND. inversion ND as [|? ? NI ND']; subst. cbn [filter fst]. destruct J as [J|J].
    + injection J as -> ->. rewrite P. f_equal. clear IH. destruct (filter _ l) as [|[m b] k] eqn:F; [reflexivity|]. exfalso.
      assert (K : In (m, b) (filter (fun e => starts_with p (fst e)) l)) by (rewrite F; left; reflexivity). apply filter_In in K as [K S].
      apply NI. rewrite <- (U' m b (or_intror K) S). apply (in_map fst) in K. exact K.
    + destruct (starts_with p m) eqn:S.
      * exfalso. apply NI. rewrite (U' m b (or_introl eq_refl) S). apply (in_map fst) in J. exact J.
      * apply IH; [exact ND'|exact J|]. intros m' b' K. apply (U' m' b'). right. exact K.
Qed.
Lemma matches_none p : matches p = [] <-> forall n, is_name c n -> ~ prefix p n.
Proof.
  unfold matches. split.
  - intros H n L Q. apply long_names in L. apply in_map_iff in L as ([m b] & <- & L). cbn [fst] in *.
    assert (K : In (m, b) (filter (fun e => starts_with p (fst e)) long_table)) by (apply filter_In; split; [exact L|apply starts_prefix; exact Q]).
    rewrite H in K. destruct K.
  - intros H. destruct (filter _ _) as [|[m b] k] eqn:F; [reflexivity|]. exfalso.
    assert (K : In (m, b) (filter (fun e => starts_with p (fst e)) long_table)) by (rewrite F; left; reflexivity). apply filter_In in K as [K S].
    apply (H m); [|apply starts_prefix; exact S]. apply long_names. apply (in_map fst) in K. exact K.
Qed.
Lemma rest_argument s : rest s = CArgument <-> number_like digit s \/ In 32 s.
Proof.
  unfold rest. rewrite <- in_space, <- (number_iff digit s DO). destruct (negative_number digit s), (existsb _ s); cbn; split; intros; try tauto; try discriminate.
  destruct H; discriminate.
Qed.
Lemma not_letter x : letter_action x = None <-> ~ is_letter c x.
Proof.
  unfold is_letter. destruct (letter_action x) as [a|] eqn:L.
  - apply letter_cases in L. split; [discriminate|]. intros N. exfalso. apply N. destruct L as [[L _]|[[L _]|(f & H & L & _)]]; eauto.
  - split; [|reflexivity]. intros _ [->|[->|(f & H & ->)]].
    + discriminate L.
    + discriminate L.
    + assert (K : letter_action (letter f) = Some (AFlag f)) by (apply letter_cases; right; right; exists f; auto). congruence.
Qed.
(** an argument is an operand exactly if it looks like one *)
Lemma classify_operand s : classify digit c s = CArgument <-> operand_like digit c s.
Proof.
  unfold operand_like. destruct s as [|x s]; [cbn; tauto|]. destruct (Z.eq_dec x 45) as [->|N].
  2: { split; [|intros _; cbn; assert (x =? 45 = false) as -> by (apply Z.eqb_neq; exact N); reflexivity]. intros _. right. left. eauto. }
  destruct s as [|x r].
  { split; [auto|]. intros _. unfold classify. change (negb (45 =? 45)) with false. cbn iota.
    destruct (dget (option_strings c) [45]) as [a|] eqn:G; [|reflexivity]. apply dget_In, table_entries in G as [(? & Q' & _)|(? & Q' & _)]; discriminate. }
  destruct (Z.eq_dec x 45) as [->|N].
  - rewrite classify_long. unfold cut. split.
    + intros H. right. right. right. destruct (split_equals r) as [[p y]|] eqn:SE.
      * destruct (matches p) as [|e [|]] eqn:M; try discriminate. split; [apply rest_argument; exact H|]. right.
        apply split_some in SE as [-> NI]. exists p, (61 :: y). split; [reflexivity|]. split; [exact NI|]. split; [eauto|]. apply matches_none. exact M.
      * destruct (matches r) as [|e [|]] eqn:M; try discriminate. split; [apply rest_argument; exact H|]. right.
        apply split_none in SE. exists r, []. rewrite app_nil_r. split; [reflexivity|]. split; [exact SE|]. split; [auto|]. apply matches_none. exact M.
    + intros [H|[(? & ? & Q & N)|[H|[R [(y & q & Q & N & _)|(p & q & Q & NI & E & NP)]]]]]; [discriminate| congruence|discriminate|congruence|].
      injection Q as ->. apply matches_none in NP. destruct E as [->|[y ->]].
      * rewrite app_nil_r in *. apply split_none in NI. rewrite NI, NP. apply rest_argument. exact R.
      * assert (SE : split_equals (p ++ 61 :: y) = Some (p, y)) by (apply split_some; auto). rewrite SE, NP. apply rest_argument. exact R.
  - rewrite classify_short by exact N. split.
    + intros H. right. right. right. destruct (letter_action x) eqn:L; [discriminate|]. split; [apply rest_argument; exact H|].
      left. exists x, r. split; [reflexivity|]. split; [exact N|]. apply not_letter. exact L.
    + intros [H|[(? & ? & Q & M)|[H|[R [(y & q & Q & M & NL)|(p & q & Q & _)]]]]]; [discriminate| congruence|discriminate| |congruence].
      injection Q as -> ->. apply not_letter in NL. rewrite NL. apply rest_argument. exact R.
Qed.

Definition act (i : item) : steps := match i with Operand _ => [] | Flag f => [(AFlag f, [])] | Output s => [(AOutput, s)] end.
Definition acts (l : list item) : steps := flat_map act l.
Lemma acts_app k l : acts (k ++ l) = acts k ++ acts l.
Proof. apply flat_map_app. Qed.
Lemma letter_flag f : has c f -> letter_action (letter f) = Some (AFlag f).
Proof. intros H. apply letter_cases. right. right. exists f. auto. Qed.
Lemma letter_dash f : letter f <> 45.
Proof. destruct f; discriminate. Qed.

(** the letters after a flag *)
Inductive tail_says : list Z -> list item -> Prop :=
| tail_letters fs : Forall (has c) fs -> tail_says (map letter fs) (map Flag fs)
| tail_equals fs s : Forall (has c) fs -> tail_says (map letter fs ++ 111 :: 61 :: s) (map Flag fs ++ [Output s])
| tail_joined fs x s : Forall (has c) fs -> x <> 61 -> tail_says (map letter fs ++ 111 :: x :: s) (map Flag fs ++ [Output (x :: s)]).
Lemma tail_cons f x k : has c f -> tail_says x k -> tail_says (letter f :: x) (Flag f :: k).
Proof.
  intros H [fs F|fs s F|fs y s F N].
  - apply (tail_letters (f :: fs)). constructor; assumption.
  - apply (tail_equals (f :: fs)). constructor; assumption.
  - apply (tail_joined (f :: fs)); [constructor; assumption|exact N].
Qed.
Definition helpless (l : steps) : Prop := forall x, ~ In (AHelp, x) l.
Lemma letters_mean x l e : letters c x = Some (l, e) -> helpless l ->
  match e with
  | EDone => exists k, l = acts k /\ tail_says x k
  | ENext => exists fs, Forall (has c) fs /\ x = map letter fs ++ [111] /\ l = acts (map Flag fs)
  | EExtras => True
  end.
Proof.
  revert l e; induction x as [|y x IH]; intros l e H HL; cbn [letters] in H.
  - injection H as <- <-. exists []. split; [reflexivity|]. apply (tail_letters []). constructor.
  - destruct (y =? 45) eqn:Y; [discriminate|]. apply Z.eqb_neq in Y. rewrite dget_letter in H by exact Y.
    destruct (letter_action y) as [a|] eqn:L; [|injection H as <- <-; exact I].
    apply letter_cases in L as [[-> ->]|[[-> ->]|(f & F & -> & ->)]].
    + destruct (starts_with [61] x); [discriminate|]. destruct (letters c x) as [[l' e']|]; [|discriminate]. injection H as <- <-.
      exfalso. apply (HL []). left. reflexivity.
    + destruct x as [|d x].
      * injection H as <- <-. exists []. split; [constructor|]. split; reflexivity.
      * injection H as <- <-. destruct (d =? 61) eqn:D; [apply Z.eqb_eq in D; subst d|apply Z.eqb_neq in D].
        -- exists [Output x]. split; [reflexivity|]. apply (tail_equals []). constructor.
        -- exists [Output (d :: x)]. split; [reflexivity|]. apply (tail_joined []); [constructor|exact D].
    + destruct (starts_with [61] x); [discriminate|]. destruct (letters c x) as [[l' e']|]; [|discriminate]. injection H as <- <-.
      specialize (IH l' e' eq_refl). assert (HL' : helpless l') by (intros z J; apply (HL z); right; exact J). specialize (IH HL').
      destruct e'.
      * destruct IH as (k & -> & T). exists (Flag f :: k). split; [reflexivity|apply tail_cons; assumption].
      * exact I.
      * destruct IH as (fs & Fs & -> & ->). exists (f :: fs). split; [constructor; assumption|]. split; reflexivity.
Qed.
Lemma letters_flag f r : has c f -> letters c (letter f :: r) =
  if starts_with [61] r then None else match letters c r with Some (l, e) => Some ((AFlag f, []) :: l, e) | None => None end.
Proof.
  intros H. cbn [letters]. assert (letter f =? 45 = false) as -> by (apply Z.eqb_neq, letter_dash).
  rewrite dget_letter by apply letter_dash. rewrite letter_flag by exact H. reflexivity.
Qed.
Lemma letters_flags fs r l e : Forall (has c) fs -> starts_with [61] r = false -> letters c r = Some (l, e) ->
  letters c (map letter fs ++ r) = Some (acts (map Flag fs) ++ l, e).
Proof.
  intros F S H. induction fs as [|f fs IH]; [exact H|]. inversion F as [|? ? F1 F2]; subst. cbn [map app]. rewrite letters_flag by exact F1.
  rewrite (IH F2). assert (starts_with [61] (map letter fs ++ r) = false) as ->; [|reflexivity].
  destruct fs as [|g fs]; [exact S|]. destruct g; reflexivity.
Qed.
Lemma letters_output r : letters c (111 :: r) = match r with [] => Some ([], ENext) | d :: r' => Some ([(AOutput, if d =? 61 then r' else r)], EDone) end.
Proof. cbn [letters]. change (111 =? 45) with false. cbn iota. rewrite dget_letter by discriminate. reflexivity. Qed.

(** what the actions of an argument are *)
Definition understood (s : list Z) : option (steps * ending) :=
  match classify digit c s with COption a b x => consume_optional c a b x | _ => None end.
Lemma understood_says s k : says c s k -> understood s = Some (acts k, EDone).
Proof.
  unfold understood. intros [fs NE F|fs x F|fs y x F N|f p H A|p x A].
  - destruct fs as [|f fs]; [contradiction|]. inversion F as [|? ? F1 F2]; subst. cbn [map].
    rewrite classify_short by apply letter_dash. rewrite letter_flag by exact F1.
    assert (LF : letters c (map letter fs) = Some (acts (map Flag fs), EDone)).
    { rewrite <- (app_nil_r (map letter fs)). rewrite (letters_flags fs [] [] EDone F2 eq_refl eq_refl). rewrite app_nil_r. reflexivity. }
    destruct fs as [|g fs]; [reflexivity|]. cbn [map] in *.
    assert (letter g =? 61 = false) as -> by (destruct g; reflexivity). cbn [consume_optional negb andb nonempty]. rewrite LF. reflexivity.
  - destruct fs as [|f fs].
    + cbn [map app]. rewrite classify_short by discriminate. reflexivity.
    + inversion F as [|? ? F1 F2]; subst. cbn [map app]. rewrite classify_short by apply letter_dash. rewrite letter_flag by exact F1.
      assert (LF : letters c (map letter fs ++ 111 :: 61 :: x) = Some (acts (map Flag fs) ++ [(AOutput, x)], EDone))
        by (apply letters_flags; [exact F2|reflexivity|rewrite letters_output; reflexivity]).
      destruct (map letter fs ++ 111 :: 61 :: x) as [|z r] eqn:E; [destruct fs; discriminate|].
      assert (z =? 61 = false) as ->.
      { destruct fs as [|g fs]; [injection E as <- _; reflexivity|]. injection E as <- _. destruct g; reflexivity. }
      cbn [consume_optional negb andb nonempty]. rewrite LF. cbn [map app]. unfold acts. cbn [flat_map act app]. rewrite flat_map_app. reflexivity.
  - assert (Y : y =? 61 = false) by (apply Z.eqb_neq; exact N). destruct fs as [|f fs].
    + cbn [map app]. rewrite classify_short by discriminate. rewrite Y. reflexivity.
    + inversion F as [|? ? F1 F2]; subst. cbn [map app]. rewrite classify_short by apply letter_dash. rewrite letter_flag by exact F1.
      assert (LF : letters c (map letter fs ++ 111 :: y :: x) = Some (acts (map Flag fs) ++ [(AOutput, y :: x)], EDone))
        by (apply letters_flags; [exact F2|reflexivity|rewrite letters_output, Y; reflexivity]).
      destruct (map letter fs ++ 111 :: y :: x) as [|z r] eqn:E; [destruct fs; discriminate|].
      assert (z =? 61 = false) as ->.
      { destruct fs as [|g fs]; [injection E as <- _; reflexivity|]. injection E as <- _. destruct g; reflexivity. }
      cbn [consume_optional negb andb nonempty]. rewrite LF. cbn [map app]. unfold acts. cbn [flat_map act app]. rewrite flat_map_app. reflexivity.
  - destruct A as (L & P & U). rewrite classify_long. unfold cut.
    assert (NE : ~ In 61 p).
    { intros J. destruct P as [r P]. apply (names_plain (name f) (AFlag f)); [apply long_action; right; right; exists f; auto|]. rewrite P. apply in_or_app. auto. }
    apply split_none in NE. rewrite NE. assert (matches p = [(name f, AFlag f)]) as ->; [|reflexivity].
    apply matches_one. split; [apply long_action; right; right; exists f; auto|]. auto.
  - destruct A as (L & P & U). rewrite classify_long. unfold cut.
    assert (NE : ~ In 61 p).
    { intros J. destruct P as [r P]. apply (names_plain (str "output") AOutput); [apply long_action; auto|]. rewrite P. apply in_or_app. auto. }
    assert (split_equals (p ++ 61 :: x) = Some (p, x)) as -> by (apply split_some; auto).
    assert (matches p = [(str "output", AOutput)]) as ->; [|reflexivity].
    apply matches_one. split; [apply long_action; auto|]. auto.
Qed.
Lemma understood_opens s k : opens c s k -> understood s = Some (acts k, ENext).
Proof.
  unfold understood. intros [fs F|p A].
  - destruct fs as [|f fs].
    + cbn [map app]. rewrite classify_short by discriminate. reflexivity.
    + inversion F as [|? ? F1 F2]; subst. cbn [map app]. rewrite classify_short by apply letter_dash. rewrite letter_flag by exact F1.
      assert (LF : letters c (map letter fs ++ [111]) = Some (acts (map Flag fs) ++ [], ENext))
        by (apply letters_flags; [exact F2|reflexivity|rewrite letters_output; reflexivity]).
      rewrite app_nil_r in LF.
      destruct (map letter fs ++ [111]) as [|z r] eqn:E; [destruct fs; discriminate|].
      assert (z =? 61 = false) as ->.
      { destruct fs as [|g fs]; [injection E as <- _; reflexivity|]. injection E as <- _. destruct g; reflexivity. }
      cbn [consume_optional negb andb nonempty]. rewrite LF. reflexivity.
  - destruct A as (L & P & U). rewrite classify_long. unfold cut.
    assert (NE : ~ In 61 p).
    { intros J. destruct P as [r P]. apply (names_plain (str "output") AOutput); [apply long_action; auto|]. rewrite P. apply in_or_app. auto. }
    apply split_none in NE. rewrite NE. assert (matches p = [(str "output", AOutput)]) as ->; [|reflexivity].
    apply matches_one. split; [apply long_action; auto|]. auto.
Qed.
Lemma understood_means s l e : understood s = Some (l, e) -> helpless l ->
  match e with
  | EDone => exists k, l = acts k /\ says c s k
  | ENext => exists k, l = acts k /\ opens c s k
  | EExtras => True
  end.
Proof.
  unfold understood. destruct s as [|x s]; [discriminate|]. destruct (Z.eq_dec x 45) as [->|N].
  2: { cbn [classify]. assert (x =? 45 = false) as -> by (apply Z.eqb_neq; exact N). discriminate. }
  destruct s as [|x r].
  { cbn [classify]. destruct (dget (option_strings c) [45]) as [a|] eqn:G; [|discriminate]. apply dget_In, table_entries in G as [(? & Q' & _)|(? & Q' & _)]; discriminate. }
  destruct (Z.eq_dec x 45) as [->|N].
  - rewrite classify_long. unfold cut.
    assert (G : forall p y n a, matches p = [(n, a)] -> consume_optional c a false y = Some (l, e) -> helpless l ->
      abbreviates c p n /\ (n = str "output" /\ (y = None /\ l = [] /\ e = ENext \/ exists b z, y = Some (b, z) /\ l = acts [Output z] /\ e = EDone) \/
                            exists f, has c f /\ n = name f /\ y = None /\ l = acts [Flag f] /\ e = EDone)).
    { intros p y n a M C HL. apply matches_one in M as (L & P & U). split.
      - split; [|auto]. apply long_names. apply (in_map fst) in L. exact L.
      - apply long_action in L as [[-> ->]|[[-> ->]|(f & H & -> & ->)]].
        + destruct y as [[b z]|]; [discriminate|]. injection C as <- <-. exfalso. apply (HL []). left. reflexivity.
        + left. split; [reflexivity|]. destruct y as [[b z]|]; injection C as <- <-; [right; exists b, z; auto|auto].
        + right. exists f. destruct y as [[b z]|]; [discriminate|]. injection C as <- <-. auto. }
    destruct (split_equals r) as [[p y]|] eqn:SE.
    + destruct (matches p) as [|[n a] [|]] eqn:M; [unfold rest; destruct (_ || _); discriminate| |discriminate].
      apply split_some in SE as [-> _]. cbn [snd]. intros C HL. destruct (G p _ n a M C HL) as (A & [(-> & [(Q & _)|(b & z & Q & -> & ->)])|(f & _ & _ & Q & _)]); try discriminate.
      injection Q as <- <-. exists [Output y]. split; [reflexivity|]. apply says_output. exact A.
    + destruct (matches r) as [|[n a] [|]] eqn:M; [unfold rest; destruct (_ || _); discriminate| |discriminate].
      cbn [snd]. intros C HL. destruct (G r _ n a M C HL) as (A & [(-> & [(Q & -> & ->)|(b & z & Q & _)])|(f & H & -> & _ & -> & ->)]); [|discriminate|].
      * exists []. split; [reflexivity|]. apply opens_name. exact A.
      * exists [Flag f]. split; [reflexivity|]. apply says_name; assumption.
  - rewrite classify_short by exact N. destruct (letter_action x) as [a|] eqn:L; [|unfold rest; destruct (_ || _); discriminate].
    apply letter_cases in L as [[-> ->]|[[-> ->]|(f & F & -> & ->)]].
    + destruct r as [|y r]; [intros C HL; injection C as <- <-; exfalso; apply (HL []); left; reflexivity|].
      cbn [consume_optional]. destruct (y =? 61); cbn [andb negb nonempty]; [discriminate|].
      destruct (letters c (y :: r)) as [[l' e']|]; [|discriminate]. intros C HL. injection C as <- <-. exfalso; apply (HL []); left; reflexivity.
    + destruct r as [|y r]; cbn [consume_optional].
      * intros C HL. injection C as <- <-. exists []. split; [reflexivity|]. apply (opens_letters c []). constructor.
      * destruct (y =? 61) eqn:Y; [apply Z.eqb_eq in Y; subst y|apply Z.eqb_neq in Y]; intros C HL; injection C as <- <-.
        -- exists [Output r]. split; [reflexivity|]. apply (says_equals c []). constructor.
        -- exists [Output (y :: r)]. split; [reflexivity|]. apply (says_joined c []); [constructor|exact Y].
    + destruct r as [|y r]; cbn [consume_optional].
      * intros C HL. injection C as <- <-. exists [Flag f]. split; [reflexivity|]. apply (says_letters c [f]); [discriminate|constructor; [exact F|constructor]].
      * destruct (y =? 61) eqn:Y; cbn [andb negb nonempty]; [discriminate|].
        destruct (letters c (y :: r)) as [[l' e']|] eqn:LE; [|discriminate]. intros C HL. injection C as <- <-.
        apply letters_mean in LE; [|intros z J; apply (HL z); right; exact J]. destruct e'; [|exact I|].
        -- destruct LE as (k & -> & T). exists (Flag f :: k). split; [reflexivity|]. apply (tail_cons f _ _ F) in T.
           assert (NE : letter f :: y :: r <> []) by discriminate.
           revert NE T. generalize (letter f :: y :: r). generalize (Flag f :: k). intros k' r' NE T. inversion T as [fs Fs Q1 Q2|fs s' Fs Q1 Q2|fs z s' Fs Nz Q1 Q2]; subst.
           ++ apply says_letters; [|exact Fs]. intros ->. apply NE. reflexivity.
           ++ apply says_equals. exact Fs.
           ++ apply says_joined; assumption.
        -- destruct LE as (fs & Fs & -> & ->). exists (Flag f :: map Flag fs). split; [reflexivity|]. apply (opens_letters c (f :: fs)). constructor; assumption.
Qed.

(** * The whole command line *)
Definition last_or (l : list (list Z)) (d : option (list Z)) : option (list Z) := match rev l with s :: _ => Some s | [] => d end.
Definition after (n : namespace) (l : list item) : namespace :=
  mkNs (n_operands n ++ operands_of l) (n_flags n ++ flags_of l) (last_or (outputs_of l) (n_output n)) (n_extras n).
Lemma last_or_app k l d : last_or (k ++ l) d = last_or l (last_or k d).
Proof. unfold last_or. rewrite rev_app_distr. destruct (rev l); reflexivity. Qed.
Lemma after_app n k l : after (after n k) l = after n (k ++ l).
Proof.
  unfold after. cbn [n_operands n_flags n_output n_extras]. unfold operands_of, flags_of, outputs_of. rewrite !flat_map_app, !app_assoc, last_or_app. reflexivity.
Qed.
Lemma after_nil n : after n [] = n.
Proof. destruct n. unfold after. cbn. rewrite !app_nil_r. reflexivity. Qed.
Lemma exclusive_in f : exclusive f = true <-> In f [FCharacters; FWords; FLines].
Proof. destruct f; cbn; split; intros H; try reflexivity; try discriminate; auto; repeat destruct H as [H|H]; try discriminate; destruct H. Qed.
Lemma flag_eqb_eq f g : flag_eqb f g = true <-> f = g.
Proof. destruct f, g; cbn; split; congruence. Qed.
Lemma clash_iff f l : exclusive f && existsb (fun g => exclusive g && negb (flag_eqb f g)) l = true <->
  exists g, In g l /\ In f [FCharacters; FWords; FLines] /\ In g [FCharacters; FWords; FLines] /\ f <> g.
Proof.
  rewrite andb_true_iff, existsb_exists, exclusive_in. split.
  - intros (F & g & J & H). apply andb_true_iff in H as [G N]. exists g. apply exclusive_in in G. repeat split; auto.
    intros E. apply flag_eqb_eq in E. rewrite E in N. discriminate.
  - intros (g & J & F & G & N). split; [exact F|]. exists g. split; [exact J|]. apply andb_true_iff. split; [apply exclusive_in; exact G|].
    destruct (flag_eqb f g) eqn:E; [apply flag_eqb_eq in E; contradiction|reflexivity].
Qed.
Lemma take_one n i : operands_of [i] = [] -> compatible (n_flags n) ->
  (compatible (n_flags n ++ flags_of [i]) -> take_actions n (act i) = Parsed (after n [i])) /\
  (forall n', take_actions n (act i) = Parsed n' -> compatible (n_flags n ++ flags_of [i]) /\ n' = after n [i]).
Proof.
  intros O C. destruct i as [s|f|s]; [discriminate| |].
  - cbn [act take_actions take_action flags_of flat_map app].
    destruct (exclusive f && existsb (fun g => exclusive g && negb (flag_eqb f g)) (n_flags n)) eqn:E.
    + apply clash_iff in E as (g & J & F & G & N). split; [|discriminate]. intros C'. exfalso. apply N.
      apply C'; [apply in_or_app; right; left; reflexivity|apply in_or_app; left; exact J|exact F|exact G].
    + assert (C' : compatible (n_flags n ++ [f])).
      { assert (NC : ~ exists g, In g (n_flags n) /\ In f [FCharacters; FWords; FLines] /\ In g [FCharacters; FWords; FLines] /\ f <> g)
          by (rewrite <- clash_iff, E; discriminate).
        assert (D : forall g, In g (n_flags n) -> In f [FCharacters; FWords; FLines] -> In g [FCharacters; FWords; FLines] -> f = g).
        { intros g J F G. destruct (flag_eqb f g) eqn:Q; [apply flag_eqb_eq; exact Q|]. exfalso. apply NC. exists g. repeat split; auto.
          intros W. apply flag_eqb_eq in W. congruence. }
        intros g h Jg Jh Xg Xh. apply in_app_or in Jg as [Jg|[<-|[]]]; apply in_app_or in Jh as [Jh|[<-|[]]]; auto. symmetry. auto. }
      assert (Q : mkNs (n_operands n) (n_flags n ++ [f]) (n_output n) (n_extras n) = after n [Flag f]) by (unfold after; cbn; rewrite app_nil_r; reflexivity).
      rewrite Q. split; [reflexivity|]. intros n' H. injection H as <-. auto.
  - cbn [act take_actions take_action flags_of flat_map app].
    assert (Q : mkNs (n_operands n) (n_flags n) (Some s) (n_extras n) = after n [Output s]) by (unfold after; cbn; rewrite !app_nil_r; reflexivity).
    rewrite Q, app_nil_r. split; [reflexivity|]. intros n' H. injection H as <-. auto.
Qed.
Lemma take_app n k l : take_actions n (k ++ l) = match take_actions n k with Parsed n => take_actions n l | Exit z => Exit z end.
Proof. revert n; induction k as [|a k IH]; intros n; cbn [app take_actions]; [reflexivity|]. destruct (take_action n a); [apply IH|reflexivity]. Qed.
Lemma compatible_app_l k l : compatible (k ++ l) -> compatible k.
Proof. intros C f g F G. apply C; apply in_or_app; auto. Qed.
Lemma take_all k : operands_of k = [] -> forall n, compatible (n_flags n) ->
  (compatible (n_flags n ++ flags_of k) -> take_actions n (acts k) = Parsed (after n k)) /\
  (forall n', take_actions n (acts k) = Parsed n' -> compatible (n_flags n ++ flags_of k) /\ n' = after n k).
Proof.
  induction k as [|i k IH]; intros O n C.
  - cbn. rewrite after_nil, app_nil_r. split; [reflexivity|]. intros n' H. injection H as <-. auto.
  - assert (O1 : operands_of [i] = []) by (destruct i; [discriminate|reflexivity..]).
    assert (O2 : operands_of k = []) by (destruct i; [discriminate|exact O..]).
    destruct (take_one n i O1 C) as [T1 T2]. cbn [acts flat_map]. fold (acts k). rewrite take_app.
    assert (FA : flags_of (i :: k) = flags_of [i] ++ flags_of k) by (change (i :: k) with ([i] ++ k); apply flat_map_app).
    rewrite FA, app_assoc. split.
    + intros C'. rewrite (T1 (compatible_app_l _ _ C')). destruct (IH O2 (after n [i])) as [I1 _].
      * exact (compatible_app_l _ _ C').
      * rewrite (I1 C'). rewrite after_app. reflexivity.
    + intros n' H. destruct (take_actions n (act i)) as [n1|] eqn:T; [|discriminate]. destruct (T2 n1 eq_refl) as [C1 ->].
      destruct (IH O2 (after n [i]) C1) as [_ I2]. destruct (I2 n' H) as [C2 ->]. rewrite after_app. auto.
Qed.
Lemma take_helpless n l n' : take_actions n l = Parsed n' -> helpless l.
Proof.
  revert n; induction l as [|[a x] l IH]; intros n H z J; [destruct J|]. cbn [take_actions] in H.
  destruct (take_action n (a, x)) as [n1|] eqn:T; [|discriminate]. destruct J as [J|J]; [injection J as -> ->; discriminate|]. exact (IH n1 H z J).
Qed.
Lemma says_operands s k : says c s k -> operands_of k = [].
Proof. assert (F : forall fs, operands_of (map Flag fs) = []) by (induction fs; auto). intros [| | | |]; auto; unfold operands_of; rewrite flat_map_app; fold (operands_of (map Flag fs)); rewrite F; reflexivity. Qed.
Lemma opens_operands s k : opens c s k -> operands_of k = [].
Proof. assert (F : forall fs, operands_of (map Flag fs) = []) by (induction fs; auto). intros [|]; auto. Qed.

Notation classes := (classify_all digit c).
Lemma never_dashes s : classify digit c s <> CDashes.
Proof.
  assert (T : ~ In CDashes (option_tuples c s)).
  { unfold option_tuples. destruct (short s).
    - intros J. apply in_flat_map in J as (e & _ & J). destruct (teq _ _); [destruct J as [J|[]]; discriminate|].
      destruct (starts_with _ _); [destruct J as [J|[]]; discriminate|destruct J].
    - destruct (match split_equals s with Some (p, x) => (p, Some (true, x)) | None => (s, None) end) as [p x].
      intros J. apply in_flat_map in J as (e & _ & J). destruct (starts_with _ _); [destruct J as [J|[]]; discriminate|destruct J]. }
  assert (U : classify_unknown digit c s <> CDashes).
  { unfold classify_unknown. destruct (option_tuples c s) as [|t [|]]; [destruct (_ || _); discriminate| |discriminate].
    intros ->. apply T. left. reflexivity. }
  destruct s as [|x r]; cbn [classify]; [discriminate|]. destruct (negb (x =? 45)); [discriminate|].
  destruct (dget (option_strings c) (x :: r)); [discriminate|]. destruct r as [|y r]; [discriminate|].
  destruct (split_equals (x :: y :: r)) as [[o v]|]; [|exact U]. destruct (dget (option_strings c) o); [discriminate|exact U].
Qed.
Lemma dashes_ambiguous : classify digit c (str "--") = CAmbiguous.
Proof. destruct c as [k d]. destruct d; vm_compute; reflexivity. Qed.
Lemma classes_cons s argv : classify digit c s <> CAmbiguous -> classes (s :: argv) = (s, classify digit c s) :: classes argv.
Proof.
  intros H. cbn [classify_all]. destruct (teq_spec s (str "--")) as [E|N]; [|reflexivity]. exfalso. apply H. rewrite E. apply dashes_ambiguous.
Qed.
Lemma classes_operand s argv : operand_like digit c s -> classes (s :: argv) = (s, CArgument) :: classes argv.
Proof. intros H. apply classify_operand in H. rewrite classes_cons, H; [reflexivity|rewrite H; discriminate]. Qed.
Lemma classes_dashes argv : classes (str "--" :: argv) = (str "--", CDashes) :: map (fun s => (s, CArgument)) argv.
Proof. reflexivity. Qed.
Lemma arguments_done s argv k run n : says c s k ->
  arguments c run (classes (s :: argv)) n = match take_actions n (acts k) with Parsed n => arguments c false (classes argv) n | Exit z => Exit z end.
Proof.
  intros H. apply understood_says in H. unfold understood in H.
  rewrite classes_cons by (intros E; rewrite E in H; discriminate). cbn [arguments].
  destruct (classify digit c s); try discriminate. rewrite H. reflexivity.
Qed.
Lemma arguments_open s v argv k run n : opens c s k -> operand_like digit c v ->
  arguments c run (classes (s :: v :: argv)) n =
  match take_actions n (acts (k ++ [Output v])) with Parsed n => arguments c false (classes argv) n | Exit z => Exit z end.
Proof.
  intros H V. apply understood_opens in H. unfold understood in H.
  rewrite classes_cons by (intros E; rewrite E in H; discriminate). rewrite (classes_operand v argv V). cbn [arguments].
  destruct (classify digit c s); try discriminate. rewrite H, acts_app. reflexivity.
Qed.
(** operands only *)
Notation plain argv := (map (fun s : list Z => (s, CArgument)) argv).
Lemma operands_map argv : operands_of (map Operand argv) = argv.
Proof. induction argv; cbn; [reflexivity|]. f_equal. assumption. Qed.
Lemma flags_map argv : flags_of (map Operand argv) = [].
Proof. induction argv; cbn; [reflexivity|]. assumption. Qed.
Lemma after_operand n s : mkNs (n_operands n ++ [s]) (n_flags n) (n_output n) (n_extras n) = after n [Operand s].
Proof. unfold after. cbn. rewrite app_nil_r. reflexivity. Qed.
Lemma plain_arguments argv : forall run n, (length (n_operands n) + length argv = c_operands c)%nat -> n_extras n = false ->
  arguments c run (plain argv) n = Parsed (after n (map Operand argv)).
Proof.
  induction argv as [|s argv IH]; intros run n L X.
  - cbn [map arguments]. rewrite X, after_nil. cbn in L. assert ((length (n_operands n) <? c_operands c)%nat = false) as -> by (apply Nat.ltb_ge; lia). reflexivity.
  - cbn [map arguments length] in *. unfold add_operand. assert ((length (n_operands n) <? c_operands c)%nat = true) as -> by (apply Nat.ltb_lt; lia).
    rewrite after_operand, IH; [rewrite after_app; reflexivity| |exact X]. cbn. rewrite app_length. cbn [length]. lia.
Qed.
Lemma spelled_arguments argv l : spelled digit c argv l -> forall run n,
  compatible (n_flags n ++ flags_of l) -> (length (n_operands n) + length (operands_of l) = c_operands c)%nat -> n_extras n = false ->
  arguments c run (classes argv) n = Parsed (after n l).
Proof.
  assert (FA : forall k l, flags_of (k ++ l) = flags_of k ++ flags_of l) by (intros; apply flat_map_app).
  assert (OA : forall k l, operands_of (k ++ l) = operands_of k ++ operands_of l) by (intros; apply flat_map_app).
  induction 1 as [|s argv l O SP IH|s argv k l SA SP IH|s v argv k l SO O SP IH|argv NE ND|s O]; intros run n C L X.
  - cbn [classify_all arguments]. cbn in L. rewrite X, after_nil. assert ((length (n_operands n) <? c_operands c)%nat = false) as -> by (apply Nat.ltb_ge; lia). reflexivity.
  - rewrite (classes_operand s argv O). cbn [arguments]. cbn [operands_of flat_map app length] in L. fold (operands_of l) in L.
    unfold add_operand. assert ((length (n_operands n) <? c_operands c)%nat = true) as -> by (apply Nat.ltb_lt; lia).
    rewrite after_operand. rewrite (IH true (after n [Operand s])); [rewrite after_app; reflexivity|cbn; rewrite app_nil_r; exact C| |exact X].
    cbn. rewrite app_length. cbn [length]. lia.
  - rewrite (arguments_done s argv k run n SA). pose proof (says_operands s k SA) as O. rewrite FA, app_assoc in C.
    destruct (take_all k O n (compatible_app_l _ _ (compatible_app_l _ _ C))) as [T _]. rewrite (T (compatible_app_l _ _ C)).
    rewrite (IH false (after n k)); [rewrite after_app; reflexivity|exact C| |exact X]. rewrite OA, O in L. cbn [app] in L. cbn [after n_operands]. rewrite O, app_nil_r. exact L.
  - rewrite (arguments_open s v argv k run n SO O). pose proof (opens_operands s k SO) as Ok.
    assert (O' : operands_of (k ++ [Output v]) = []) by (rewrite OA, Ok; reflexivity).
    assert (Q : k ++ Output v :: l = (k ++ [Output v]) ++ l) by (rewrite <- app_assoc; reflexivity). rewrite Q in *. rewrite FA, app_assoc in C.
    destruct (take_all _ O' n (compatible_app_l _ _ (compatible_app_l _ _ C))) as [T _]. rewrite (T (compatible_app_l _ _ C)).
    rewrite (IH false (after n (k ++ [Output v]))); [rewrite after_app; reflexivity|exact C| |exact X]. rewrite OA, O' in L. cbn [app] in L. cbn [after n_operands]. rewrite O', app_nil_r. exact L.
  - rewrite classes_dashes. cbn [arguments]. rewrite operands_map in L.
    assert (nonempty (plain argv) && (length (n_operands n) <? c_operands c)%nat = true) as ->.
    { destruct argv; [contradiction|]. cbn [map nonempty andb]. cbn in L. apply Nat.ltb_lt. lia. }
    rewrite orb_true_r. apply plain_arguments; assumption.
  - rewrite (classes_operand s _ O), classes_dashes. cbn [arguments map orb]. cbn [operands_of flat_map app length] in L.
    unfold add_operand. assert ((length (n_operands n) <? c_operands c)%nat = true) as -> by (apply Nat.ltb_lt; lia).
    cbn [n_operands n_extras]. rewrite app_length, X. cbn [length].
    assert ((length (n_operands n) + 1 <? c_operands c)%nat = false) as -> by (apply Nat.ltb_ge; lia). cbn [orb].
    rewrite <- X, after_operand. reflexivity.
Qed.
Lemma extras_kept run l : forall n n', arguments c run l n = Parsed n' -> n_extras n = false.
Proof.
  assert (T : forall a n n', take_actions n a = Parsed n' -> n_extras n' = n_extras n).
  { induction a as [|[a x] l' IH]; intros n n' H; cbn [take_actions] in H; [injection H as <-; reflexivity|].
    destruct (take_action n (a, x)) as [n1|] eqn:E; [|discriminate]. rewrite (IH _ _ H). destruct a; cbn [take_action] in E; [discriminate|injection E as <-; reflexivity|].
    destruct (_ && _); [discriminate|injection E as <-; reflexivity]. }
  assert (G : forall m l, (length l <= m)%nat -> forall run n n', arguments c run l n = Parsed n' -> n_extras n = false).
  { induction m as [|m IH]; intros k Lk r n n' H.
    - destruct k; [|cbn in Lk; lia]. cbn [arguments] in H. destruct (n_extras n); [rewrite orb_true_r in H; discriminate|reflexivity].
    - destruct k as [|[s cl] k]; [cbn [arguments] in H; destruct (n_extras n); [rewrite orb_true_r in H; discriminate|reflexivity]|].
      cbn in Lk. cbn [arguments] in H. destruct cl as [|a b x| | |].
      + apply IH in H; [|lia]. unfold add_operand in H. destruct (_ <? _)%nat; [exact H|discriminate].
      + destruct (consume_optional c a b x) as [[l' [| |]]|]; [| | |discriminate].
        * destruct (take_actions n l') as [n1|] eqn:E; [|discriminate]. rewrite <- (T _ _ _ E). apply (IH k) with false n'; [lia|exact H].
        * destruct (take_actions n l') as [n1|] eqn:E; [|discriminate]. apply IH in H; [discriminate|lia].
        * destruct k as [|[v [| | | |]] k]; try discriminate. destruct (take_actions n (l' ++ [(AOutput, v)])) as [n1|] eqn:E; [|discriminate].
          rewrite <- (T _ _ _ E). apply (IH k) with false n'; [cbn in Lk; lia|exact H].
      + apply IH in H; [discriminate|lia].
      + discriminate.
      + destruct (_ || _); apply IH in H; try lia; [exact H|discriminate]. }
  intros n n'. apply (G (length l)). lia.
Qed.
Lemma plain_spelled argv : forall run n n', arguments c run (plain argv) n = Parsed n' -> (length (n_operands n) <= c_operands c)%nat ->
  n' = after n (map Operand argv) /\ (length (n_operands n) + length argv = c_operands c)%nat.
Proof.
  induction argv as [|s argv IH]; intros run n n' H L.
  - cbn [map arguments] in H. destruct (length (n_operands n) <? c_operands c)%nat eqn:E; [discriminate|]. apply Nat.ltb_ge in E.
    destruct (n_extras n); [discriminate|]. injection H as <-. rewrite after_nil. cbn. split; [reflexivity|lia].
  - cbn [map arguments] in H. pose proof (extras_kept _ _ _ _ H) as X. unfold add_operand in H, X.
    destruct (length (n_operands n) <? c_operands c)%nat eqn:E; [|discriminate]. apply Nat.ltb_lt in E.
    rewrite after_operand in H. apply IH in H as [-> L']; [|cbn; rewrite app_length; cbn [length]; lia].
    rewrite after_app. cbn in L'. rewrite app_length in L'. cbn in L' |- *. split; [reflexivity|lia].
Qed.
Lemma one_tail s argv : one_dashes (s :: argv) -> one_dashes argv.
Proof. intros H pre post E. apply (H (s :: pre) post). rewrite E. reflexivity. Qed.
Lemma arguments_spelled : forall m argv, (length argv <= m)%nat -> one_dashes argv ->
  forall run n n', compatible (n_flags n) -> (length (n_operands n) <= c_operands c)%nat ->
  arguments c run (classes argv) n = Parsed n' ->
  run = true /\ argv = [str "--"] /\ n' = n /\ length (n_operands n) = c_operands c \/
  exists l, spelled digit c argv l /\ n' = after n l /\ compatible (n_flags n ++ flags_of l) /\
    (length (n_operands n) + length (operands_of l) = c_operands c)%nat.
Proof.
  assert (FA : forall k l, flags_of (k ++ l) = flags_of k ++ flags_of l) by (intros; apply flat_map_app).
  assert (OA : forall k l, operands_of (k ++ l) = operands_of k ++ operands_of l) by (intros; apply flat_map_app).
  assert (Z0 : forall n n', compatible (n_flags n) -> (length (n_operands n) <= c_operands c)%nat -> forall run, arguments c run [] n = Parsed n' ->
    exists l, spelled digit c [] l /\ n' = after n l /\ compatible (n_flags n ++ flags_of l) /\ (length (n_operands n) + length (operands_of l) = c_operands c)%nat).
  { intros n n' C L run H. cbn [arguments] in H. destruct (length (n_operands n) <? c_operands c)%nat eqn:E; [discriminate|]. apply Nat.ltb_ge in E.
    destruct (n_extras n); [discriminate|]. injection H as <-. exists []. rewrite after_nil. cbn. rewrite app_nil_r. split; [constructor|]. split; [reflexivity|]. split; [exact C|lia]. }
  induction m as [|m IH]; intros argv Lm OD run n n' C L H.
  - right. destruct argv; [exact (Z0 n n' C L run H)|cbn in Lm; lia].
  - destruct argv as [|s argv]; [right; exact (Z0 n n' C L run H)|]. cbn in Lm. pose proof (extras_kept _ _ _ _ H) as X.
    pose proof (one_tail _ _ OD) as OT. cbn [classify_all] in H. revert H. destruct (teq_spec s (str "--")) as [Es|Ns]; intros H.
    { subst s. cbn [arguments] in H. destruct argv as [|s argv].
      - cbn [map arguments nonempty andb] in H. rewrite orb_false_r in H. left. destruct run.
        + destruct (length (n_operands n) <? c_operands c)%nat eqn:E; [discriminate|]. apply Nat.ltb_ge in E.
          destruct (n_extras n); [discriminate|]. injection H as <-. repeat split. lia.
        + cbn [add_extra n_extras] in H. rewrite orb_true_r in H. discriminate.
      - right. assert (HP : arguments c true (plain (s :: argv)) n = Parsed n').
        { destruct (_ || _) in H; [exact H|]. apply extras_kept in H. discriminate. }
        apply plain_spelled in HP as [-> L']; [|exact L]. exists (map Operand (s :: argv)).
        rewrite flags_map, app_nil_r, operands_map. split; [|auto]. apply spelled_dashes; [discriminate|]. apply (OD []). reflexivity. }
    cbn [arguments] in H. destruct (classify digit c s) as [|a b x| | |] eqn:CL.
    + pose proof (extras_kept _ _ _ _ H) as X'. unfold add_operand in H, X'. destruct (length (n_operands n) <? c_operands c)%nat eqn:E; [|discriminate]. apply Nat.ltb_lt in E.
      rewrite after_operand in H. right. destruct (IH argv) with (run := true) (n := after n [Operand s]) (n' := n') as [(_ & -> & -> & L')|(l & SP & -> & C' & L')]; [lia|exact OT|cbn; rewrite app_nil_r; exact C|cbn; rewrite app_length; cbn [length]; lia|exact H| |].
      { exists [Operand s]. split; [apply spelled_end, classify_operand, CL|]. split; [reflexivity|]. cbn in L' |- *. rewrite app_length in L'. rewrite app_nil_r.
        split; [exact C|exact L']. }
      exists (Operand s :: l). split; [constructor; [apply classify_operand; exact CL|exact SP]|]. split; [rewrite after_app; reflexivity|]. split.
      * cbn [after n_flags flags_of flat_map app] in C'. rewrite app_nil_r in C'. exact C'.
      * cbn [after n_operands operands_of flat_map app] in L'. rewrite app_length in L'. cbn in L' |- *. unfold operands_of in *. lia.
    + assert (U : understood s = consume_optional c a b x) by (unfold understood; rewrite CL; reflexivity).
      destruct (consume_optional c a b x) as [[l' [| |]]|] eqn:CO; [| | |discriminate].
      * destruct (take_actions n l') as [n1|] eqn:E; [|discriminate].
        destruct (understood_means s l' EDone U (take_helpless _ _ _ E)) as (k & -> & SA). pose proof (says_operands s k SA) as O.
        destruct (take_all k O n C) as [_ T]. destruct (T n1 E) as [C1 ->].
        right. destruct (IH argv) with (run := false) (n := after n k) (n' := n') as [(Q & _)|(l & SP & -> & C' & L')]; [lia|exact OT|exact C1|cbn; rewrite O, app_nil_r; exact L|exact H|discriminate|].
        exists (k ++ l). split; [constructor; assumption|]. split; [rewrite after_app; reflexivity|]. rewrite FA, app_assoc. split; [exact C'|].
        rewrite OA, O. cbn [after n_operands] in L'. rewrite O, app_nil_r in L'. exact L'.
      * destruct (take_actions n l') as [n1|] eqn:E; [|discriminate]. apply extras_kept in H. discriminate.
      * right. destruct argv as [|v argv]; [discriminate|]. cbn [classify_all] in H.
        destruct (teq v (str "--")); [discriminate|]. destruct (classify digit c v) eqn:CV; try discriminate.
        destruct (take_actions n (l' ++ [(AOutput, v)])) as [n1|] eqn:E; [|discriminate].
        assert (HL : helpless l') by (intros z J; apply (take_helpless _ _ _ E z); apply in_or_app; auto).
        destruct (understood_means s l' ENext U HL) as (k & -> & SO). pose proof (opens_operands s k SO) as O.
        assert (O' : operands_of (k ++ [Output v]) = []) by (rewrite OA, O; reflexivity).
        change [(AOutput, v)] with (acts [Output v]) in E. rewrite <- acts_app in E.
        destruct (take_all _ O' n C) as [_ T]. destruct (T n1 E) as [C1 ->].
        destruct (IH argv) with (run := false) (n := after n (k ++ [Output v])) (n' := n') as [(Q & _)|(l & SP & -> & C' & L')]; [cbn in Lm; lia|exact (one_tail _ _ OT)|exact C1|cbn [after n_operands]; rewrite O', app_nil_r; exact L|exact H|discriminate|].
        exists (k ++ Output v :: l). split; [constructor; [exact SO|apply classify_operand; exact CV|exact SP]|].
        assert (Q : k ++ Output v :: l = (k ++ [Output v]) ++ l) by (rewrite <- app_assoc; reflexivity). rewrite Q.
        split; [rewrite after_app; reflexivity|]. rewrite FA, app_assoc. split; [exact C'|].
        rewrite OA, O'. cbn [after n_operands] in L'. rewrite O', app_nil_r in L'. exact L'.
    + apply extras_kept in H. discriminate.
    + discriminate.
    + exfalso. exact (never_dashes s CL).
Qed.
Lemma plain_clear argv : existsb (fun e => is_ambiguous (snd e)) (plain argv) = false.
Proof. induction argv; [reflexivity|assumption]. Qed.
Lemma spelled_clear argv l : spelled digit c argv l -> existsb (fun e => is_ambiguous (snd e)) (classes argv) = false.
Proof.
  induction 1 as [|s argv l O SP IH|s argv k l SA SP IH|s v argv k l SO O SP IH|argv NE ND|s O].
  - reflexivity.
  - rewrite (classes_operand s argv O). exact IH.
  - apply understood_says in SA. unfold understood in SA. rewrite classes_cons by (intros E; rewrite E in SA; discriminate).
    cbn [existsb snd]. destruct (classify digit c s); try discriminate. exact IH.
  - apply understood_opens in SO. unfold understood in SO. rewrite classes_cons by (intros E; rewrite E in SO; discriminate).
    rewrite (classes_operand v argv O). cbn [existsb snd]. destruct (classify digit c s); try discriminate. exact IH.
  - apply plain_clear.
  - rewrite (classes_operand s _ O). reflexivity.
Qed.
Lemma spelled_one : forall argv l, spelled digit c argv l -> one_dashes argv.
Proof.
  assert (G : forall s argv, classify digit c s <> CAmbiguous -> one_dashes argv -> one_dashes (s :: argv)).
  { intros s argv H OD [|s' pre] post E; [|injection E as _ E; exact (OD pre post E)]. injection E as -> _. exfalso. apply H, dashes_ambiguous. }
  assert (E0 : one_dashes []) by (intros [|? pre] post E; discriminate).
  assert (E1 : forall argv, ~ In (str "--") argv -> one_dashes (str "--" :: argv)).
  { intros argv N [|s pre] post E; [injection E as <-; exact N|]. injection E as _ ->. exfalso. apply N. apply in_or_app. right. left. reflexivity. }
  assert (EO : forall s, operand_like digit c s -> classify digit c s <> CAmbiguous) by (intros s O; apply classify_operand in O; rewrite O; discriminate).
  induction 1 as [|s argv l O SP IH|s argv k l SA SP IH|s v argv k l SO O SP IH|argv NE ND|s O]; auto.
  - apply G; [|exact IH]. apply understood_says in SA. unfold understood in SA. intros E; rewrite E in SA; discriminate.
  - apply G; [|auto]. apply understood_opens in SO. unfold understood in SO. intros E; rewrite E in SO; discriminate.
Qed.
Lemma parse_exactly argv n : one_dashes argv -> parse_args digit c argv = Parsed n <->
  exists l, spelled digit c argv l /\ length (operands_of l) = c_operands c /\ compatible (flags_of l) /\
    n = mkNs (operands_of l) (flags_of l) (last_output l) false.
Proof.
  intros OD. unfold parse_args. split.
  - intros H. destruct (existsb _ _); [discriminate|].
    destruct (arguments_spelled (length argv) argv (le_n _) OD false empty_ns n) as [(Q & _)|(l & SP & -> & C & L)]; [intros ? ? []|cbn; lia|exact H|discriminate|].
    exists l. auto.
  - intros (l & SP & L & C & ->). rewrite (spelled_clear argv l SP). rewrite (spelled_arguments argv l SP false empty_ns); auto.
Qed.
End One.
