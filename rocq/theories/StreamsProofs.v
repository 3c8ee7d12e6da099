(** Reading streams of arbitrary bytes (C80). *)
From Coq Require Import Lia.
From Verif Require Import Base Changesets Serialize SpecSerialize SerializeProofs.
Local Open Scope Z_scope.

Lemma bytes_firstn n s : Forall is_byte s -> Forall is_byte (firstn n s).
Proof. intros H. rewrite <- (firstn_skipn n s) in H. now apply Forall_app in H. Qed.
Lemma bytes_skipn n s : Forall is_byte s -> Forall is_byte (skipn n s).
Proof. intros H. rewrite <- (firstn_skipn n s) in H. now apply Forall_app in H. Qed.
Lemma from_bytes_bound s : Forall is_byte s -> 0 <= from_bytes s < 256 ^ Z.of_nat (length s).
Proof.
  induction s as [|b s IH] using rev_ind; intros H; [cbn; lia|].
  apply Forall_app in H as [H1 H2]. inversion H2 as [|? ? B _]; subst. unfold is_byte in B.
  rewrite from_bytes_snoc, app_length. cbn [length]. rewrite Nat.add_1_r, pow_S. specialize (IH H1). lia.
Qed.

Lemma venc_short v c : venc v c ->
  (length c <= 1)%nat \/ (240 < v /\ length c = 2%nat) \/ (2287 < v /\ length c = 3%nat) \/
  (exists n, length c = S n /\ (3 <= n <= 8)%nat /\ 67823 < v /\ (n = 3%nat \/ 256 ^ Z.of_nat (n - 1) <= v)).
Proof.
  destruct 1 as [v H|v e He H|v H|v n c H Hn Hc Hm]; cbn [length]; rewrite ?be_length.
  - left. lia.
  - right; left. lia.
  - right; right; left. lia.
  - right; right; right. exists n. repeat split; try lia.
Qed.

Lemma vdes_any s : Forall is_byte s -> vdeserialize_int s = Err StreamError \/
  exists b v rest, s = b ++ rest /\ vdeserialize_int s = Ok (v, rest) /\ u64 v /\ (1 <= length b <= 9)%nat /\
    forall c, vserialize_int v = Ok c -> (length c <= length b)%nat.
Proof.
  intros H. destruct s as [|a s]; [now left|]. inversion H as [|? ? A B]; subst. unfold is_byte in A.
  assert (P : forall k v, (1 <= k <= 9)%nat -> (k <= length (a :: s))%nat -> u64 v ->
    vdeserialize_int (a :: s) = Ok (v, skipn k (a :: s)) ->
    (forall c, venc v c -> (length c <= k)%nat) ->
    exists b v0 rest, a :: s = b ++ rest /\ vdeserialize_int (a :: s) = Ok (v0, rest) /\ u64 v0 /\
      (1 <= length b <= 9)%nat /\ forall c, vserialize_int v0 = Ok c -> (length c <= length b)%nat).
  { intros k v K L U D C. exists (firstn k (a :: s)), v, (skipn k (a :: s)).
    split; [now rewrite firstn_skipn|]. split; [exact D|]. split; [exact U|].
    rewrite firstn_length_le by exact L. split; [exact K|]. intros c Hc. apply C. now apply vser_inv in Hc. }
  unfold u64 in *. change (2 ^ 64) with 18446744073709551616 in *.
  rewrite vdes_cons in *.
  destruct (Z.leb_spec 0 a); [|lia]. destruct (Z.leb_spec a 240); cbn [andb] in *.
  { right. apply (P 1%nat a); try lia; [cbn [length]; lia|reflexivity|].
    intros c Hc. apply venc_short in Hc as [?|[[? ?]|[[? ?]|(n & ? & ? & ? & ?)]]]; lia. }
  destruct (Z.leb_spec 241 a); [|lia]. destruct (Z.leb_spec a 248); cbn [andb] in *.
  { destruct s as [|a1 s]; [now left|]. right. inversion B as [|? ? B1 _]; subst. unfold is_byte in B1.
    apply (P 2%nat (240 + 256 * (a - 241) + a1)); try lia; [cbn [length]; lia|reflexivity|].
    intros c Hc. apply venc_short in Hc as [?|[[? ?]|[[? ?]|(n & ? & ? & ? & ?)]]]; lia. }
  destruct (Z.eqb_spec a 249) as [->|N].
  - destruct (Nat.ltb_spec (length s) 2); [now left|]. right.
    assert (F : Forall is_byte (firstn 2 s)) by now apply bytes_firstn.
    apply from_bytes_bound in F. rewrite firstn_length_le in F by lia. change (256 ^ Z.of_nat 2) with 65536 in F.
    apply (P 3%nat (2288 + from_bytes (firstn 2 s))); try lia; [cbn [length]; lia|reflexivity|].
    intros c Hc. apply venc_short in Hc as [?|[[? ?]|[[? ?]|(n & ? & ? & ? & ?)]]]; lia.
  - destruct (Nat.ltb_spec (S (length s)) (Z.to_nat (a - 246))) as [|L]; [now left|]. right.
    remember (Z.to_nat (a - 246)) as k eqn:K. assert (K' : (4 <= k <= 9)%nat) by lia.
    assert (F : from_bytes (pyslice (a :: s) 1 (Some k)) = from_bytes (firstn (k - 1) s)) by reflexivity.
    assert (G : 0 <= from_bytes (firstn (k - 1) s) < 256 ^ Z.of_nat (k - 1)).
    { replace (k - 1)%nat with (length (firstn (k - 1) s)) at 3 by (apply firstn_length_le; lia).
      apply from_bytes_bound. now apply bytes_firstn. }
    rewrite F in *. clear F. set (v := from_bytes (firstn (k - 1) s)) in *.
    apply (P k v); try lia; [cbn [length]; lia| |reflexivity|].
    + split; [lia|]. apply (Z.lt_le_trans _ _ _ (proj2 G)). change 18446744073709551616 with (256 ^ 8). apply Z.pow_le_mono_r; lia.
    + intros c Hc. apply venc_short in Hc as [?|[[? ?]|[[? ?]|(n & ? & ? & ? & [?|M])]]]; try lia.
      assert (Z.of_nat (n - 1) < Z.of_nat (k - 1)); [|lia].
      apply (Z.pow_lt_mono_r_iff 256); lia.
Qed.

Lemma other_start p : forall nb s, serialize_loop nb p = Ok s ->
  exists s', serialize_loop (negb nb) p = Ok s' /\ (length s' <= length s + (if nb then 2 else 1))%nat.
Proof.
  destruct p as [|[d|[i j]] p]; intros nb s; cbn [serialize_loop].
  - intros [= <-]. exists []. split; [reflexivity|cbn; lia].
  - change (vserialize_int 0) with (Ok [0]).
    destruct (vserialize_int (Z.of_nat (length d))) as [n|]; [|destruct nb; discriminate].
    destruct (serialize_loop false p) as [r|]; [|destruct nb; discriminate].
    destruct nb; cbn [negb bind]; intros [= <-]; eexists; (split; [reflexivity|]); cbn [length app]; lia.
  - change (vserialize_int 0) with (Ok [0]).
    destruct (vserialize_int (Z.of_nat i)) as [n|]; [|destruct nb; discriminate].
    destruct (vserialize_bound j) as [n'|]; [|destruct nb; discriminate].
    destruct (serialize_loop true p) as [r|]; [|destruct nb; discriminate].
    destruct nb; cbn [negb bind]; intros [= <-]; eexists; (split; [reflexivity|]); cbn [length app]; lia.
Qed.

Definition fine (nb : bool) (s : list Z) (r : list (pitem Z) * option exn) : Prop :=
  (snd r = None \/ snd r = Some StreamError) /\ patch_fits (fst r) /\ trimmed (fst r) = fst r /\
  (snd r = None -> exists s', serialize_loop nb (fst r) = Ok s' /\ (length s' <= length s)%nat).

Lemma fine_error nb s : fine nb s ([], Some StreamError).
Proof. split; [now right|]. split; [constructor|]. split; [reflexivity|discriminate]. Qed.

Lemma des_any fuel : forall nb s, Forall is_byte s -> (length s <= fuel)%nat -> fine nb s (deserialize_loop fuel nb s).
Proof.
  induction fuel as [|fuel IH]; intros nb s B L.
  - destruct s; [|cbn in L; lia]. split; [now left|]. split; [constructor|]. split; [reflexivity|]. intros _. now exists [].
  - destruct s as [|x s'].
    { split; [now left|]. split; [constructor|]. split; [reflexivity|]. intros _. now exists []. }
    remember (x :: s') as s eqn:Es. assert (N : s <> []) by (subst; discriminate). clear x s' Es.
    rewrite deserialize_S by exact N.
    destruct (vdes_any s B) as [->|(b & v & r & E & -> & U & Lb & Sh)]; [destruct nb; apply fine_error|].
    assert (B' : Forall is_byte r) by (subst s; now apply Forall_app in B).
    assert (L' : (length r <= fuel)%nat) by (subst s; rewrite app_length in L; lia).
    assert (Ls : length s = (length b + length r)%nat) by (subst s; apply app_length).
    destruct nb.
    + destruct (Z.eqb_spec v 0) as [->|V].
      { destruct (IH false r B' L') as (F1 & F2 & F3 & F4). split; [exact F1|]. split; [exact F2|]. split; [exact F3|].
        intros Z. destruct (F4 Z) as (t & T1 & T2). destruct (other_start _ _ _ T1) as (t' & T3 & T4).
        exists t'. split; [exact T3|]. lia. }
      destruct (Z.ltb_spec (Z.of_nat (length r)) v) as [|Hv]; [apply fine_error|].
      assert (Lf : length (firstn (Z.to_nat v) r) = Z.to_nat v) by (apply firstn_length_le; lia).
      assert (Lk : length (skipn (Z.to_nat v) r) = (length r - Z.to_nat v)%nat) by apply skipn_length.
      destruct (IH false (skipn (Z.to_nat v) r)) as (F1 & F2 & F3 & F4); [now apply bytes_skipn|lia|].
      destruct (deserialize_loop fuel false (skipn (Z.to_nat v) r)) as [items e]. cbn [fst snd] in *.
      unfold u64 in U. assert (Ev : Z.of_nat (Z.to_nat v) = v) by lia.
      split; [exact F1|]. split; [constructor; [cbn; rewrite Lf, Ev; exact U|exact F2]|]. split.
      * cbn [fst]. unfold trimmed in *. cbn [filter]. destruct (firstn (Z.to_nat v) r) as [|y l] eqn:Ef; [cbn in Lf; lia|].
        cbn [idle negb]. f_equal. exact F3.
      * intros Z. destruct (F4 Z) as (t & T1 & T2). cbn [fst serialize_loop bind].
        rewrite Lf, Ev, T1. destruct (vserialize_venc v U) as (c & Hc & _). rewrite Hc. cbn [bind app].
        eexists; split; [reflexivity|]. specialize (Sh _ Hc). rewrite !app_length, Lf. lia.
    + destruct (vdes_any r B') as [->|(b2 & w & r2 & E2 & -> & U2 & Lb2 & Sh2)]; [apply fine_error|].
      assert (B2 : Forall is_byte r2) by (subst r; now apply Forall_app in B').
      assert (Lr : length r = (length b2 + length r2)%nat) by (subst r; apply app_length).
      destruct (IH true r2 B2 ltac:(lia)) as (F1 & F2 & F3 & F4).
      destruct (deserialize_loop fuel true r2) as [items e]. cbn [fst snd] in *.
      unfold u64 in U, U2.
      destruct (Z.eqb_spec v w) as [->|V]; cbn [fst snd].
      { split; [exact F1|]. split; [exact F2|]. split; [exact F3|]. intros Z. destruct (F4 Z) as (t & T1 & T2).
        destruct (other_start _ _ _ T1) as (t' & T3 & T4). exists t'. split; [exact T3|lia]. }
      assert (Ev : Z.of_nat (Z.to_nat v) = v) by lia. assert (Ew : Z.of_nat (Z.to_nat w) = w) by lia.
      split; [exact F1|]. split; [constructor; [cbn; rewrite Ev, Ew; split; assumption|exact F2]|]. split.
      * cbn [fst]. unfold trimmed in *. cbn [filter idle]. replace (Z.to_nat v =? Z.to_nat w)%nat with false by (symmetry; apply Nat.eqb_neq; lia).
        cbn [negb]. f_equal. exact F3.
      * intros Z. destruct (F4 Z) as (t & T1 & T2). cbn [fst serialize_loop bind vserialize_bound].
        rewrite Ev, Ew, T1. destruct (vserialize_venc v U) as (c & Hc & _). rewrite Hc.
        destruct (vserialize_venc w U2) as (c2 & Hc2 & _). rewrite Hc2. cbn [bind app].
        eexists; split; [reflexivity|]. specialize (Sh _ Hc). specialize (Sh2 _ Hc2). rewrite !app_length. lia.
Qed.

Theorem any_stream s : Forall is_byte s -> exists items e, deserialize_changeset s = (items, e) /\
  (e = None \/ e = Some StreamError) /\ patch_fits items /\ trimmed items = items /\
  (e = None -> exists s', serialize_changeset items = Ok s' /\ (length s' <= length s)%nat /\
     deserialize_changeset s' = (items, None)).
Proof.
  intros B. destruct (des_any (length s) true s B (le_n _)) as (F1 & F2 & F3 & F4).
  exists (fst (deserialize_changeset s)), (snd (deserialize_changeset s)).
  split; [apply surjective_pairing|]. split; [exact F1|]. split; [exact F2|]. split; [exact F3|].
  intros Z. destruct (F4 Z) as (s' & S1 & S2). exists s'. split; [exact S1|]. split; [exact S2|].
  destruct (patch_round_trip _ F2) as (s'' & S3 & S4). assert (s'' = s') by (unfold serialize_changeset in S3; congruence). subst.
  rewrite S4, F3. reflexivity.
Qed.
Theorem any_int s : Forall is_byte s -> vdeserialize_int s = Err StreamError \/
  exists b v rest, s = b ++ rest /\ vdeserialize_int s = Ok (v, rest) /\ u64 v /\ (1 <= length b <= 9)%nat /\
    exists c, vserialize_int v = Ok c /\ (length c <= length b)%nat.
Proof.
  intros B. destruct (vdes_any s B) as [|(b & v & r & E & D & U & L & C)]; [now left|]. right.
  exists b, v, r. repeat split; try assumption; try lia; try (unfold u64 in U; lia).
  destruct (vserialize_venc v U) as (c & Hc & _). exists c. split; [exact Hc|]. now apply C.
Qed.
