(** Proofs about the writing and reading of manifest documents. *)
From Coq Require Import ZArith Lia.
From Verif Require Import Base Tokenizers SpecTokenizers Utf8Proofs Json Manifest SpecVersions SpecManifest.
Local Open Scope Z_scope.

#[export] Instance TeqOk_tag : TeqOk tag.
Proof.
  intros [s|n] [t|m]; cbn; split; try congruence; intros H.
  - f_equal. now apply teq_ok.
  - injection H as ->. now apply teq_ok.
  - f_equal. now apply Z.eqb_eq.
  - injection H as ->. apply Z.eqb_refl.
Qed.

Ltac zb := repeat match goal with
  | H : _ && _ = true |- _ => apply andb_true_iff in H as [? ?]
  | H : _ || _ = false |- _ => apply orb_false_iff in H as [? ?]
  | H : negb _ = true |- _ => apply negb_true_iff in H
  | H : negb _ = false |- _ => apply negb_false_iff in H
  | H : (_ <=? _) = true |- _ => apply Z.leb_le in H
  | H : (_ <=? _) = false |- _ => apply Z.leb_gt in H
  | H : (_ <? _) = true |- _ => apply Z.ltb_lt in H
  | H : (_ <? _) = false |- _ => apply Z.ltb_ge in H
  | H : (_ =? _) = true |- _ => apply Z.eqb_eq in H
  | H : (_ =? _) = false |- _ => apply Z.eqb_neq in H
  end.

(** * Escapes *)
Lemma hex_digit_value k : 0 <= k < 16 -> hex_value (hex_digit k) = Some k.
Proof.
  intros H. assert (K : In k (map Z.of_nat (seq 0 16))).
  { apply in_map_iff. exists (Z.to_nat k). split; [lia|apply in_seq; lia]. }
  cbn in K. repeat (destruct K as [<-|K]; [reflexivity|]). contradiction.
Qed.
Lemma hex_digit_range k : 0 <= k < 16 -> 48 <= hex_digit k <= 57 \/ 97 <= hex_digit k <= 102.
Proof. intros H. unfold hex_digit. destruct (k <? 10) eqn:?; zb; lia. Qed.
Lemma hex4_escape n : 0 <= n < 65536 ->
  hex4 (hex_digit (n / 4096)) (hex_digit ((n / 256) mod 16)) (hex_digit ((n / 16) mod 16)) (hex_digit (n mod 16)) = Some n.
Proof.
  intros H. unfold hex4.
  rewrite !hex_digit_value by (try apply Z.mod_pos_bound; try (split; [apply Z.div_pos|apply Z.div_lt_upper_bound]); lia).
  f_equal. Z.to_euclidean_division_equations; lia.
Qed.
Lemma is_high_spec u : is_high u = true <-> high u.
Proof. unfold is_high, high. split; [intros H; zb; lia|intros [? ?]; apply andb_true_iff; split; apply Z.leb_le; lia]. Qed.
Lemma is_low_spec u : is_low u = true <-> low u.
Proof. unfold is_low, low. split; [intros H; zb; lia|intros [? ?]; apply andb_true_iff; split; apply Z.leb_le; lia]. Qed.

Lemma scan_escape n r : 0 <= n < 65536 -> scan_string (u_escape n ++ r) =
  if is_high n then
    match r with
    | b :: (x :: s4) =>
      if (b =? 92) && (x =? 117) then
        match s4 with
        | k1 :: k2 :: k3 :: k4 :: s5 =>
          match hex4 k1 k2 k3 k4 with
          | None => None
          | Some u2 => if is_low u2 then push (join_pair n u2) (scan_string s5) else push n (scan_string r)
          end
        | _ => None
        end
      else push n (scan_string r)
    | _ => push n (scan_string r)
    end
  else push n (scan_string r).
Proof.
  intros H. unfold u_escape. cbn [app]. cbn [scan_string].
  change (92 =? 34) with false. change (92 <? 32) with false. change (negb (92 =? 92)) with false.
  change (negb (117 =? 117)) with false. cbn iota.
  now rewrite hex4_escape.
Qed.

(** how the text of a character begins *)
Lemma dump_char_cases c : 0 <= c <= 1114111 ->
  (32 <= c <= 126 /\ c <> 34 /\ c <> 92 /\ dump_char c = [c]) \/
  (exists e, dump_char c = [92; e] /\ simple_escape e = Some c /\ e <> 117 /\ 34 <= e <= 116 /\ c < 55296) \/
  (dump_char c = u_escape c /\ c < 65536) \/
  (65536 <= c /\ dump_char c = u_escape (55296 + (c - 65536) / 1024) ++ u_escape (56320 + (c - 65536) mod 1024)).
Proof.
  intros H. unfold dump_char.
  destruct (c =? 34) eqn:E1; zb; [subst; right; left; exists 34; repeat split; lia|].
  destruct (c =? 92) eqn:E2; zb; [subst; right; left; exists 92; repeat split; lia|].
  destruct ((32 <=? c) && (c <=? 126)) eqn:E3; [zb; left; repeat split; auto; lia|].
  destruct (c =? 8) eqn:E4; zb; [subst; right; left; exists 98; repeat split; lia|].
  destruct (c =? 12) eqn:E5; zb; [subst; right; left; exists 102; repeat split; lia|].
  destruct (c =? 10) eqn:E6; zb; [subst; right; left; exists 110; repeat split; lia|].
  destruct (c =? 13) eqn:E7; zb; [subst; right; left; exists 114; repeat split; lia|].
  destruct (c =? 9) eqn:E8; zb; [subst; right; left; exists 116; repeat split; lia|].
  destruct (c <? 65536) eqn:E9; zb.
  - right; right; left. split; [reflexivity|lia].
  - right; right; right. split; [lia|reflexivity].
Qed.

Lemma pair_range c : 65536 <= c <= 1114111 ->
  55296 <= 55296 + (c - 65536) / 1024 <= 56319 /\ 56320 <= 56320 + (c - 65536) mod 1024 <= 57343 /\
  join_pair (55296 + (c - 65536) / 1024) (56320 + (c - 65536) mod 1024) = c.
Proof. intros H. unfold join_pair. Z.to_euclidean_division_equations; lia. Qed.

(** the strings come back with their pairs joined *)
Lemma scan_dump : forall n s r, (length s <= n)%nat -> chars s ->
  exists t, rejoined s t /\ scan_string (flat_map dump_char s ++ 34 :: r) = Some (t, r).
Proof.
  induction n as [|n IH]; intros s r Hl Hc.
  { destruct s; [|cbn in Hl; lia]. exists []. split; [constructor|reflexivity]. }
  destruct s as [|c s]; [exists []; split; [constructor|reflexivity]|].
  cbn in Hl. inversion Hc as [|? ? Hc1 Hc2]; subst.
  destruct (IH s r ltac:(lia) Hc2) as [t [Ht Hs]].
  cbn [flat_map]. rewrite <- app_assoc. set (rest := flat_map dump_char s ++ 34 :: r) in *.
  destruct (dump_char_cases c Hc1) as [[Hr [Hq [Hb Hd]]]|[[e [Hd [He [Hu [Hr Hlt]]]]]|[[Hd Hlt]|[Hge Hd]]]]; rewrite Hd.
  - exists (c :: t). split; [constructor; [unfold high; lia|assumption]|].
    cbn [app scan_string].
    rewrite (proj2 (Z.eqb_neq c 34)) by lia. rewrite (proj2 (Z.ltb_ge c 32)) by lia.
    rewrite (proj2 (Z.eqb_neq c 92)) by lia. cbn [negb]. now rewrite Hs.
  - exists (c :: t). split; [constructor; [unfold high; lia|assumption]|].
    cbn [app scan_string].
    change (92 =? 34) with false. change (92 <? 32) with false. change (negb (92 =? 92)) with false. cbn iota.
    rewrite (proj2 (Z.eqb_neq e 117)) by lia. cbn [negb]. now rewrite He, Hs.
  - rewrite scan_escape by lia. destruct (is_high c) eqn:Hh.
    2: { exists (c :: t). split; [constructor; [|assumption]|now rewrite Hs].
         intros [K _]. apply is_high_spec in K. congruence. }
    assert (Hch : high c) by now apply is_high_spec.
    destruct s as [|w s].
    { unfold rest in *. cbn [flat_map app] in *. exists (c :: t). split.
      - constructor; [|assumption]. intros [_ [w [r' [K _]]]]; discriminate.
      - change (34 =? 92) with false. cbn [andb]. rewrite Hs. destruct r; reflexivity. }
    inversion Hc2 as [|? ? Hw1 Hw2]; subst.
    destruct (dump_char_cases w Hw1) as [[Hr [Hq [Hb Hdw]]]|[[e [Hdw [He [Hu [Hr Hlt']]]]]|[[Hdw Hlt']|[Hge Hdw]]]].
    + exists (c :: t). split.
      { constructor; [|assumption]. intros [_ [w' [r' [K L]]]]. injection K as <- <-. unfold low in L; lia. }
      unfold rest in *. cbn [flat_map] in *. rewrite Hdw in *. cbn [app] in *.
      rewrite (proj2 (Z.eqb_neq w 92)) by lia. cbn [andb]. rewrite Hs.
      destruct (flat_map dump_char s ++ 34 :: r); reflexivity.
    + exists (c :: t). split.
      { constructor; [|assumption]. intros [_ [w' [r' [K L]]]]. injection K as <- <-. unfold low in L; lia. }
      unfold rest in *. cbn [flat_map] in *. rewrite Hdw in *. cbn [app] in *.
      rewrite (proj2 (Z.eqb_neq e 117)) by lia. rewrite andb_false_r. now rewrite Hs.
    + destruct (is_low w) eqn:Hlw.
      * destruct (IH s r ltac:(cbn in Hl; lia) Hw2) as [t' [Ht' Hs']].
        exists (65536 + (c - 55296) * 1024 + (w - 56320) :: t'). split.
        { constructor; auto. now apply is_low_spec. }
        unfold rest in *. cbn [flat_map] in *. rewrite Hdw in *. unfold u_escape in *. cbn [app] in *.
        change ((92 =? 92) && (117 =? 117)) with true. cbn iota.
        rewrite hex4_escape by lia. rewrite Hlw, Hs'. unfold join_pair. cbn [push]. do 3 f_equal; lia.
      * exists (c :: t). split.
        { constructor; [|assumption]. intros [_ [w' [r' [K L]]]]. injection K as <- <-.
          apply is_low_spec in L. congruence. }
        unfold rest in *. cbn [flat_map] in *. rewrite Hdw in *. unfold u_escape in *. cbn [app] in *.
        change ((92 =? 92) && (117 =? 117)) with true. cbn iota.
        rewrite hex4_escape by lia. now rewrite Hlw, Hs.
    + exists (c :: t). split.
      { constructor; [|assumption]. intros [_ [w' [r' [K L]]]]. injection K as <- <-. unfold low in L; lia. }
      destruct (pair_range w ltac:(lia)) as [P1 [P2 P3]].
      unfold rest in *. cbn [flat_map] in *. rewrite Hdw in *.
      set (u2 := 56320 + (w - 65536) mod 1024) in *. set (u1 := 55296 + (w - 65536) / 1024) in *.
      unfold u_escape in *. cbn [app] in *.
      change ((92 =? 92) && (117 =? 117)) with true. cbn iota.
      rewrite hex4_escape by lia.
      destruct (is_low u1) eqn:Hl1; [apply is_low_spec in Hl1; unfold low in Hl1; lia|].
      now rewrite Hs.
  - destruct (pair_range c ltac:(lia)) as [P1 [P2 P3]].
    set (u2 := 56320 + (c - 65536) mod 1024) in *. set (u1 := 55296 + (c - 65536) / 1024) in *.
    rewrite <- app_assoc, scan_escape by lia.
    rewrite (proj2 (is_high_spec u1)) by (unfold high; lia).
    exists (c :: t). split; [constructor; [unfold high; lia|assumption]|].
    unfold u_escape at 1. cbn [app].
    change ((92 =? 92) && (117 =? 117)) with true. cbn iota.
    rewrite hex4_escape by lia. rewrite (proj2 (is_low_spec u2)) by (unfold low; lia).
    rewrite Hs, P3. reflexivity.
Qed.

(** * Rejoining *)
Lemma has_pair_cons c s : has_pair s -> has_pair (c :: s).
Proof. intros [a [u [w [b [-> H]]]]]. exists (c :: a), u, w, b. auto. Qed.
Lemma rejoined_text s t : ~ has_pair s -> rejoined s t -> t = s.
Proof.
  intros H R. induction R as [|u w s t Hu Hw R IH|c s t Hc R IH]; [reflexivity| |].
  - exfalso; apply H. exists [], u, w, s. auto.
  - f_equal. apply IH. intros K. apply H. now apply has_pair_cons.
Qed.
Lemma rejoined_length s t : rejoined s t -> (length t <= length s)%nat /\ (has_pair s -> length t < length s)%nat.
Proof.
  intros R. induction R as [|u w s t Hu Hw R [IH1 IH2]|c s t Hc R [IH1 IH2]]; cbn.
  - split; [lia|]. intros [a [u [w [b [K _]]]]]. destruct a; discriminate.
  - split; [lia|]. intros _; lia.
  - split; [lia|]. intros [a [u [w [b [K [Hu Hw]]]]]].
    destruct a as [|x a]; cbn in K; injection K as -> ->.
    + exfalso; apply Hc. split; [assumption|]. now exists w, b.
    + specialize (IH2 (ex_intro _ a (ex_intro _ u (ex_intro _ w (ex_intro _ b (conj eq_refl (conj Hu Hw))))))). lia.
Qed.
Lemma rejoined_fun s t : rejoined s t -> forall t', rejoined s t' -> t = t'.
Proof.
  intros R. induction R as [|u w s t Hu Hw R IH|c s t Hc R IH]; intros t' R'.
  - now inversion R'.
  - inversion R' as [|? ? ? ? ? ? R2|? ? ? Hc R2]; subst; [f_equal; auto|].
    exfalso; apply Hc. split; auto. now exists w, s.
  - inversion R' as [|? ? ? ? ? ? R2|? ? ? Hc' R2]; subst; [|f_equal; auto].
    exfalso; apply Hc. split; auto. eexists _, _; split; [reflexivity|assumption].
Qed.

(** * ASCII *)
Definition ascii (s : list Z) : Prop := Forall (fun c => 0 <= c < 128) s.
Definition printable (s : list Z) : Prop := Forall (fun c => 32 <= c < 127) s.
Lemma u_escape_printable n : 0 <= n < 65536 -> printable (u_escape n).
Proof.
  intros H. unfold u_escape, printable.
  assert (D : forall k, 0 <= k < 16 -> 32 <= hex_digit k < 127) by (intros k Hk; pose proof (hex_digit_range k Hk); lia).
  constructor; [lia|]. constructor; [lia|].
  repeat (constructor; [apply D; try apply Z.mod_pos_bound; try (split; [apply Z.div_pos|apply Z.div_lt_upper_bound]); lia|]).
  constructor.
Qed.
Lemma dump_char_printable c : 0 <= c <= 1114111 -> printable (dump_char c).
Proof.
  intros H. destruct (dump_char_cases c H) as [[Hr [_ [_ ->]]]|[[e [-> [_ [_ [Hr _]]]]]|[[-> Hlt]|[Hge ->]]]].
  - constructor; [lia|constructor].
  - constructor; [lia|]. constructor; [lia|constructor].
  - apply u_escape_printable; lia.
  - destruct (pair_range c ltac:(lia)) as [P1 [P2 _]].
    apply Forall_app; split; apply u_escape_printable; lia.
Qed.
Lemma dump_str_printable s : chars s -> printable (dump_str s).
Proof.
  intros H. unfold dump_str. constructor; [lia|]. apply Forall_app; split; [|constructor; [lia|constructor]].
  induction H as [|c s Hc H IH]; [constructor|]. cbn. apply Forall_app; split; [now apply dump_char_printable|exact IH].
Qed.

(** * Integers *)
Definition digit (c : Z) : Prop := 48 <= c <= 57.
Lemma digits_ok : forall fuel n acc, 0 <= n < 10 ^ Z.of_nat fuel -> (0 < fuel)%nat ->
  exists d ds, digits fuel n acc = d :: ds ++ acc /\ digit d /\ Forall digit ds /\
    (0 < n -> d <> 48) /\ (n = 0 -> d = 48 /\ ds = []) /\ int_value (d :: ds) = n.
Proof.
  induction fuel as [|fuel IH]; intros n acc Hn Hf; [lia|].
  cbn [digits]. destruct (n <? 10) eqn:E; zb.
  - exists (48 + n), []. split; [reflexivity|]. unfold digit. split; [lia|]. split; [constructor|].
    split; [lia|]. split; [intros ->; auto|]. unfold int_value; cbn [fold_left]; lia.
  - assert (Hf' : (0 < fuel)%nat) by (destruct fuel; [cbn in Hn; lia|lia]).
    assert (Hd : 0 <= n / 10 < 10 ^ Z.of_nat fuel).
    { rewrite Nat2Z.inj_succ, Z.pow_succ_r in Hn by lia. Z.to_euclidean_division_equations; lia. }
    destruct (IH (n / 10) (48 + n mod 10 :: acc) Hd Hf') as [d [ds [-> [D1 [D2 [D3 [D4 D5]]]]]]].
    exists d, (ds ++ [48 + n mod 10]). rewrite <- app_assoc.
    split; [reflexivity|]. split; [assumption|]. split.
    { apply Forall_app; split; [assumption|]. constructor; [|constructor]. unfold digit. pose proof (Z.mod_pos_bound n 10). lia. }
    split; [intros _; apply D3; Z.to_euclidean_division_equations; lia|]. split; [lia|].
    unfold int_value in *. rewrite app_comm_cons, fold_left_app. cbn [fold_left].
    cbn [fold_left] in D5. rewrite D5. Z.to_euclidean_division_equations; lia.
Qed.
Lemma dump_nat_ok n : 0 <= n -> exists d ds, dump_nat n = d :: ds /\ digit d /\ Forall digit ds /\
  (d = 48 -> ds = []) /\ int_value (d :: ds) = n.
Proof.
  intros H. unfold dump_nat.
  destruct (digits_ok (S (Z.to_nat (Z.log2 n))) n []) as [d [ds [-> [D1 [D2 [D3 [D4 D5]]]]]]]; [|lia|].
  - split; [assumption|]. rewrite Nat2Z.inj_succ, Z2Nat.id by apply Z.log2_nonneg.
    destruct (Z.eq_dec n 0) as [->|Hn]; [cbn; lia|].
    pose proof (Z.log2_spec n ltac:(lia)) as [_ L]. pose proof (Z.log2_nonneg n).
    apply Z.lt_le_trans with (1 := L). apply Z.pow_le_mono_l; lia.
  - exists d, ds. rewrite app_nil_r. split; [reflexivity|]. do 2 (split; [assumption|]). split; [|assumption].
    intros ->. destruct (Z.eq_dec n 0) as [->|Hn]; [now apply D4|]. exfalso; apply D3; [lia|reflexivity].
Qed.
Lemma span_digits_app ds r : Forall digit ds -> match r with c :: _ => is_digit c = false | [] => True end ->
  span_digits (ds ++ r) = (ds, r).
Proof.
  intros H Hr. induction H as [|c ds Hc H IH]; cbn.
  - destruct r as [|c r]; [reflexivity|]. cbn. now rewrite Hr.
  - assert (K : is_digit c = true) by (unfold is_digit, digit in *; apply andb_true_iff; split; apply Z.leb_le; lia).
    now rewrite K, IH.
Qed.
(** a number is followed by a comma or a brace in a manifest *)
Definition ends_number (r : list Z) : Prop := match r with c :: _ => c = 44 \/ c = 125 | [] => True end.
Lemma scan_dump_nat n r : 0 <= n -> ends_number r ->
  exists d, scan_nat (dump_nat n ++ r) = Some (d, r) /\ int_value d = n.
Proof.
  intros H Hr. destruct (dump_nat_ok n H) as [d [ds [-> [D1 [D2 [D3 D4]]]]]].
  exists (d :: ds). split; [|assumption]. cbn [app scan_nat]. unfold digit in D1.
  destruct (d =? 48) eqn:E; zb.
  - rewrite (D3 E). cbn. reflexivity.
  - assert (K : is_digit d = true) by (unfold is_digit; apply andb_true_iff; split; apply Z.leb_le; lia).
    rewrite K. rewrite app_comm_cons, span_digits_app; [reflexivity|constructor; assumption|].
    destruct r as [|c r]; [exact I|]. cbn in Hr. destruct Hr as [->| ->]; reflexivity.
Qed.
Lemma dump_nat_head n : 0 <= n -> exists d ds, dump_nat n = d :: ds /\ digit d.
Proof. intros H. destruct (dump_nat_ok n H) as [d [ds [-> [D1 _]]]]. now exists d, ds. Qed.
Lemma scan_dump_int n r : ends_number r -> scan_number (dump_int n ++ r) = Some (JInt n, r).
Proof.
  intros Hr. assert (Fr : scan_frac r = ([], r)).
  { destruct r as [|c r]; [reflexivity|]. cbn in Hr. destruct Hr as [->| ->]; reflexivity. }
  assert (Ex : scan_exp r = ([], r)).
  { destruct r as [|c r]; [reflexivity|]. cbn in Hr. destruct Hr as [->| ->]; reflexivity. }
  unfold dump_int, scan_number. destruct (n <? 0) eqn:E; zb.
  - cbn [app]. change (45 =? 45) with true. cbn iota.
    destruct (scan_dump_nat (- n) r ltac:(lia) Hr) as [d [-> Hd]].
    rewrite Fr, Ex. cbn [app]. do 3 f_equal. lia.
  - destruct (dump_nat_head n ltac:(lia)) as [d0 [ds [K D]]].
    destruct (scan_dump_nat n r ltac:(lia) Hr) as [d [S1 Hd]]. rewrite K in *. cbn [app] in *.
    unfold digit in D. rewrite (proj2 (Z.eqb_neq d0 45)) by lia. rewrite S1, Fr, Ex. cbn [app]. do 3 f_equal. lia.
Qed.
Lemma dump_int_head n : exists c ds, dump_int n = c :: ds /\ (c = 45 \/ digit c) /\ Forall digit ds.
Proof.
  unfold dump_int. destruct (n <? 0) eqn:E; zb.
  - destruct (dump_nat_ok (- n) ltac:(lia)) as [d [ds [-> [D1 [D2 _]]]]]. exists 45, (d :: ds). split; [reflexivity|].
    split; [now left|]. constructor; assumption.
  - destruct (dump_nat_ok n ltac:(lia)) as [d [ds [-> [D1 [D2 _]]]]]. exists d, ds. auto.
Qed.
Lemma dump_int_printable n : printable (dump_int n).
Proof.
  destruct (dump_int_head n) as [c [ds [-> [Hc Hd]]]]. constructor; [unfold digit in Hc; lia|].
  eapply Forall_impl; [|exact Hd]. unfold digit; intros; lia.
Qed.
