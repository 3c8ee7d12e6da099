(** Proofs about serialize.py. *)
From Verif Require Import Base SpecSeq Strings Changesets ChangesetsProofs DiffProofs Serialize SpecSerialize.
Local Open Scope Z_scope.

Lemma be_length n v : length (be n v) = n.
Proof. revert v; induction n; intros; cbn; [reflexivity|]; rewrite app_length, IHn; cbn; lia. Qed.
Lemma be_bytes n v : Forall is_byte (be n v).
Proof.
  revert v; induction n; intros; cbn; [constructor|]; apply Forall_app; split; [apply IHn|].
  constructor; [|constructor]; apply Z.mod_pos_bound; lia.
Qed.
Lemma from_bytes_snoc s b : from_bytes (s ++ [b]) = from_bytes s * 256 + b.
Proof. unfold from_bytes; now rewrite fold_left_app. Qed.
Lemma pow_S n : 256 ^ Z.of_nat (S n) = 256 * 256 ^ Z.of_nat n.
Proof. rewrite Nat2Z.inj_succ, Z.pow_succ_r; lia. Qed.
Lemma from_be n v : 0 <= v < 256 ^ Z.of_nat n -> from_bytes (be n v) = v.
Proof.
  revert v; induction n; intros v H; [cbn in *; lia|].
  rewrite pow_S in H; cbn [be]; rewrite from_bytes_snoc, IHn.
  - pose proof (Z.div_mod v 256); lia.
  - split; [apply Z.div_pos; lia|apply Z.div_lt_upper_bound; lia].
Qed.
Lemma to_bytes_ok n v : 0 <= v < 256 ^ Z.of_nat n -> to_bytes n v = Ok (be n v).
Proof.
  intros H; unfold to_bytes; destruct (Z.leb_spec 0 v), (Z.ltb_spec v (256 ^ Z.of_nat n)); cbn; auto; lia.
Qed.
Lemma to_bytes_bad n v : ~ (0 <= v < 256 ^ Z.of_nat n) -> to_bytes n v = Err OverflowError.
Proof.
  intros H; unfold to_bytes; destruct (Z.leb_spec 0 v), (Z.ltb_spec v (256 ^ Z.of_nat n)); cbn; auto; lia.
Qed.
Lemma to_bytes_1 v : 0 <= v < 256 -> to_bytes 1 v = Ok [v].
Proof. intros H; rewrite to_bytes_ok by (cbn; lia); cbn; now rewrite Z.mod_small by lia. Qed.

(** The shape of the encodings. *)
Inductive venc : Z -> list Z -> Prop :=
| V1 v : 0 <= v <= 240 -> venc v [v]
| V2 v e : e = v - 240 -> 240 < v <= 2287 -> venc v [241 + e / 256; e mod 256]
| V3 v : 2287 < v <= 67823 -> venc v (249 :: be 2 (v - 2288))
| VW v n c : 67823 < v < 256 ^ Z.of_nat n -> (3 <= n <= 8)%nat -> c = Z.of_nat n + 247 ->
    (n = 3%nat \/ 256 ^ Z.of_nat (n - 1) <= v) -> venc v (c :: be n v).

Lemma vserialize_venc v : u64 v -> exists b, vserialize_int v = Ok b /\ venc v b.
Proof.
  unfold u64; intros H; change (2 ^ 64) with 18446744073709551616 in H; unfold vserialize_int.
  assert (W : forall n c, (3 <= n <= 8)%nat -> c = Z.of_nat n + 247 -> 67823 < v < 256 ^ Z.of_nat n ->
    (n = 3%nat \/ 256 ^ Z.of_nat (n - 1) <= v) ->
    exists b, (let* c := to_bytes 1 c in let* b := to_bytes n v in Ok (c ++ b)) = Ok b /\ venc v b).
  { intros n c Hn Hc Hv Hm; rewrite to_bytes_1 by lia; cbn [bind]; rewrite to_bytes_ok by lia; cbn [bind].
    eexists; split; [reflexivity|]; now apply VW. }
  destruct (Z.leb_spec v 240).
  { rewrite to_bytes_1 by lia; eexists; split; [reflexivity|]; apply V1; lia. }
  destruct (Z.leb_spec v 2287).
  { cbn zeta; assert (0 <= (v - 240) / 256 <= 7).
    { split; [apply Z.div_pos; lia|]; apply Z.lt_succ_r, Z.div_lt_upper_bound; lia. }
    pose proof (Z.mod_pos_bound (v - 240) 256).
    rewrite !to_bytes_1 by lia; cbn [bind]; eexists; split; [reflexivity|]; apply V2; [reflexivity|lia]. }
  destruct (Z.leb_spec v 67823).
  { cbn zeta; assert (0 <= (v - 2288) / 256 <= 255).
    { split; [apply Z.div_pos; lia|]; apply Z.lt_succ_r, Z.div_lt_upper_bound; lia. }
    pose proof (Z.mod_pos_bound (v - 2288) 256).
    rewrite !to_bytes_1 by lia; cbn [bind]; eexists; split; [reflexivity|].
    replace ([249] ++ [(v - 2288) / 256] ++ [(v - 2288) mod 256]) with (249 :: be 2 (v - 2288)); [apply V3; lia|].
    cbn [be app]; rewrite (Z.mod_small ((v - 2288) / 256)) by lia; reflexivity. }
  destruct (Z.leb_spec v 16777215); [apply (W 3%nat); auto; cbn; lia|].
  destruct (Z.leb_spec v 4294967295); [apply (W 4%nat); auto; cbn; lia|].
  destruct (Z.leb_spec v 1099511627775); [apply (W 5%nat); auto; cbn; lia|].
  destruct (Z.leb_spec v 281474976710655); [apply (W 6%nat); auto; cbn; lia|].
  destruct (Z.leb_spec v 72057594037927935); [apply (W 7%nat); auto; cbn; lia|].
  apply (W 8%nat); auto; cbn; lia.
Qed.
Lemma vserialize_bad v : ~ u64 v -> vserialize_int v = Err OverflowError.
Proof.
  unfold u64; change (2 ^ 64) with 18446744073709551616; intros H; unfold vserialize_int.
  destruct (Z.leb_spec v 240); [apply to_bytes_bad; cbn; lia|].
  destruct (Z.leb_spec v 2287); [lia|].
  destruct (Z.leb_spec v 67823); [lia|].
  destruct (Z.leb_spec v 16777215); [lia|].
  destruct (Z.leb_spec v 4294967295); [lia|].
  destruct (Z.leb_spec v 1099511627775); [lia|].
  destruct (Z.leb_spec v 281474976710655); [lia|].
  destruct (Z.leb_spec v 72057594037927935); [lia|].
  rewrite to_bytes_1 by lia; cbn [bind]; rewrite to_bytes_bad; [reflexivity|cbn; lia].
Qed.

Lemma vdes_cons a s : vdeserialize_int (a :: s) =
  if (0 <=? a) && (a <=? 240) then Ok (a, s)
  else if (241 <=? a) && (a <=? 248) then
    match s with [] => Err StreamError | a1 :: s' => Ok (240 + 256 * (a - 241) + a1, s') end
  else if a =? 249 then
    if (length s <? 2)%nat then Err StreamError else Ok (2288 + from_bytes (firstn 2 s), skipn 2 s)
  else if (S (length s) <? Z.to_nat (a - 246))%nat then Err StreamError
       else Ok (from_bytes (pyslice (a :: s) 1 (Some (Z.to_nat (a - 246)))), skipn (Z.to_nat (a - 246)) (a :: s)).
Proof.
  unfold vdeserialize_int; cbn [length firstn]; change (from_bytes [a]) with a.
  replace (S (length s) <? 1)%nat with false by (symmetry; apply Nat.ltb_ge; lia).
  destruct ((0 <=? a) && (a <=? 240)); [reflexivity|].
  destruct ((241 <=? a) && (a <=? 248)).
  - destruct s as [|a1 s]; reflexivity.
  - destruct (a =? 249); [|reflexivity]; reflexivity.
Qed.

Ltac zbool := repeat match goal with
  | |- context [?x <=? ?y] => destruct (Z.leb_spec x y); try lia
  | |- context [?x =? ?y] => destruct (Z.eqb_spec x y); try lia
  end; cbn [andb].

Lemma vdes_enc v b rest : venc v b -> vdeserialize_int (b ++ rest) = Ok (v, rest).
Proof.
  destruct 1 as [v H|v e He H|v H|v n c H Hn Hc Hm]; cbn [app]; rewrite vdes_cons.
  - zbool; reflexivity.
  - subst e; assert (0 <= (v - 240) / 256 <= 7).
    { split; [apply Z.div_pos; lia|]; apply Z.lt_succ_r, Z.div_lt_upper_bound; lia. }
    zbool; f_equal; f_equal; pose proof (Z.div_mod (v - 240) 256); lia.
  - zbool.
    rewrite app_length, be_length; cbn [Nat.add Nat.ltb Nat.leb].
    rewrite firstn_app, skipn_app, be_length, Nat.sub_diag, firstn_all2, skipn_all2 by (rewrite be_length; lia).
    cbn [firstn skipn app]; rewrite app_nil_r, from_be by (cbn; lia); f_equal; f_equal; lia.
  - zbool.
    replace (Z.to_nat (c - 246)) with (S n) by lia.
    rewrite app_length, be_length; destruct (Nat.ltb_spec (S (n + length rest)) (S n)); [lia|].
    unfold pyslice; cbn [skipn].
    replace (S n - 1)%nat with n by lia.
    rewrite firstn_app, skipn_app, be_length, Nat.sub_diag, firstn_all2, skipn_all2 by (rewrite be_length; lia).
    cbn [firstn skipn app]; rewrite app_nil_r, from_be by lia; reflexivity.
Qed.

Theorem vround_trip v : u64 v -> exists b, vserialize_int v = Ok b /\
  forall rest, vdeserialize_int (b ++ rest) = Ok (v, rest).
Proof.
  intros H; destruct (vserialize_venc v H) as [b [Hb He]]; exists b; split; [exact Hb|].
  intros rest; now apply vdes_enc.
Qed.

(** ** Shape of encodings *)
Lemma venc_length v b : venc v b -> (1 <= length b <= 9)%nat /\ Forall is_byte b.
Proof.
  destruct 1 as [v H|v e He H|v H|v n c H Hn Hc Hm]; cbn [length]; rewrite ?be_length; split; try lia.
  - constructor; [unfold is_byte; lia|constructor].
  - assert (0 <= (v - 240) / 256 <= 7).
    { split; [apply Z.div_pos; lia|]; apply Z.lt_succ_r, Z.div_lt_upper_bound; lia. }
    pose proof (Z.mod_pos_bound e 256); subst e; constructor; [|constructor; [|constructor]]; unfold is_byte; lia.
  - constructor; [unfold is_byte; lia|apply be_bytes].
  - constructor; [unfold is_byte; lia|apply be_bytes].
Qed.
Lemma lex_snoc a b x y : length a = length b -> lex_lt a b \/ (a = b /\ x < y) -> lex_lt (a ++ [x]) (b ++ [y]).
Proof.
  revert b; induction a as [|c a IH]; intros [|d b] Hl [H|[H1 H2]]; cbn in *; try discriminate.
  - inversion H.
  - now apply lex_head.
  - inversion H; subst; [now apply lex_head|apply lex_tail, IH; auto; lia].
  - injection H1 as -> ->; apply lex_tail, IH; auto.
Qed.
Lemma lex_be n v w : 0 <= v < w -> w < 256 ^ Z.of_nat n -> lex_lt (be n v) (be n w).
Proof.
  revert v w; induction n; intros v w H Hw; [cbn in Hw; lia|].
  rewrite pow_S in Hw; cbn [be]; apply lex_snoc; [now rewrite !be_length|].
  assert (v / 256 <= w / 256) by (apply Z.div_le_mono; lia).
  destruct (Z.eq_dec (v / 256) (w / 256)) as [Heq|Hne].
  - right; split; [now rewrite Heq|]. pose proof (Z.div_mod v 256); pose proof (Z.div_mod w 256); lia.
  - left; apply IHn; [split; [apply Z.div_pos; lia|lia]|apply Z.div_lt_upper_bound; lia].
Qed.
Lemma venc_lex v w a b : venc v a -> venc w b -> v < w -> lex_lt a b /\ (length a <= length b)%nat.
Proof.
  assert (D : forall v, 240 < v <= 2287 -> 0 <= (v - 240) / 256 <= 7).
  { intros x Hx; split; [apply Z.div_pos; lia|]; apply Z.lt_succ_r, Z.div_lt_upper_bound; lia. }
  destruct 1 as [v H|v e He H|v H|v n c H Hn Hc Hm]; destruct 1 as [w H'|w e' He' H'|w H'|w n' c' H' Hn' Hc' Hm']; intros Hvw;
    try lia; cbn [length]; rewrite ?be_length; subst.
  - split; [apply lex_head; lia|lia].
  - specialize (D w); split; [apply lex_head; lia|lia].
  - split; [apply lex_head; lia|lia].
  - split; [apply lex_head; lia|lia].
  - split; [|lia].
    assert ((v - 240) / 256 <= (w - 240) / 256) by (apply Z.div_le_mono; lia).
    destruct (Z.eq_dec ((v - 240) / 256) ((w - 240) / 256)) as [Heq|Hne].
    + rewrite Heq; apply lex_tail, lex_head.
      pose proof (Z.div_mod (v - 240) 256); pose proof (Z.div_mod (w - 240) 256); lia.
    + apply lex_head; lia.
  - specialize (D v); split; [apply lex_head; lia|lia].
  - specialize (D v); split; [apply lex_head; lia|lia].
  - split; [apply lex_tail, lex_be; cbn; lia|lia].
  - split; [apply lex_head; lia|lia].
  - destruct (Nat.lt_trichotomy n n') as [Hl|[->|Hl]].
    + split; [apply lex_head; lia|lia].
    + split; [apply lex_tail, lex_be; lia|lia].
    + exfalso; destruct Hm as [->|Hm]; [lia|].
      assert (256 ^ Z.of_nat n' <= 256 ^ Z.of_nat (n - 1)) by (apply Z.pow_le_mono_r; lia); lia.
Qed.

Theorem vserialize_shape v : u64 v -> exists b, vserialize_int v = Ok b /\ (1 <= length b <= 9)%nat /\ Forall is_byte b.
Proof. intros H; destruct (vserialize_venc v H) as [b [Hb He]]; exists b; split; [exact Hb|now apply venc_length with v]. Qed.
Lemma vser_inv v b : vserialize_int v = Ok b -> u64 v /\ venc v b.
Proof.
  intros H; assert (u64 v \/ ~ u64 v) as [Hu|Hu] by (unfold u64; lia).
  - destruct (vserialize_venc v Hu) as [b' [Hb He]]; split; [exact Hu|]; congruence.
  - rewrite vserialize_bad in H by exact Hu; discriminate.
Qed.
Theorem vserialize_prefix_free v w a b x y : vserialize_int v = Ok a -> vserialize_int w = Ok b ->
  a ++ x = b ++ y -> v = w /\ a = b /\ x = y.
Proof.
  intros Ha Hb H; destruct (vser_inv _ _ Ha) as [_ Ea]; destruct (vser_inv _ _ Hb) as [_ Eb].
  pose proof (vdes_enc _ _ x Ea) as D1; pose proof (vdes_enc _ _ y Eb) as D2; rewrite H in D1; rewrite D1 in D2.
  injection D2 as -> ->; assert (a = b) as -> by congruence; auto.
Qed.
Theorem vserialize_order v w a b : vserialize_int v = Ok a -> vserialize_int w = Ok b ->
  v < w -> lex_lt a b /\ (length a <= length b)%nat.
Proof. intros Ha Hb; apply venc_lex; [apply (vser_inv _ _ Ha)|apply (vser_inv _ _ Hb)]. Qed.

Lemma venc_truncated v b n : venc v b -> (n < length b)%nat -> vdeserialize_int (firstn n b) = Err StreamError.
Proof.
  intros H Hn; destruct n as [|n]; [reflexivity|].
  destruct H as [v H|v e He H|v H|v k c H Hk Hc Hm]; cbn [length] in Hn; rewrite ?be_length in Hn.
  - lia.
  - assert (n = 0)%nat as -> by lia; cbn [firstn]; rewrite vdes_cons; subst e.
    assert (0 <= (v - 240) / 256 <= 7).
    { split; [apply Z.div_pos; lia|]; apply Z.lt_succ_r, Z.div_lt_upper_bound; lia. }
    zbool; reflexivity.
  - cbn [firstn]; rewrite vdes_cons; zbool.
    rewrite firstn_length, be_length; destruct (Nat.ltb_spec (Nat.min n 2) 2); [reflexivity|lia].
  - cbn [firstn]; rewrite vdes_cons; zbool.
    rewrite firstn_length, be_length; destruct (Nat.ltb_spec (S (Nat.min n k)) (Z.to_nat (c - 246))); [reflexivity|lia].
Qed.

(** ** Fixed width *)
Theorem fixed_round_trip v rest : 0 <= v < 2 ^ 32 -> exists b, serialize_int v = Ok b /\ length b = 4%nat /\
  deserialize_int (b ++ rest) = Ok (v, rest).
Proof.
  intros H; unfold serialize_int; rewrite to_bytes_ok by exact H; exists (be 4 v).
  split; [reflexivity|split; [apply be_length|]]; unfold deserialize_int.
  rewrite app_length, be_length; cbn [Nat.add Nat.ltb Nat.leb].
  rewrite firstn_app, skipn_app, be_length, Nat.sub_diag, firstn_all2, skipn_all2 by (rewrite be_length; lia).
  cbn [firstn skipn app]; rewrite app_nil_r, from_be by exact H; reflexivity.
Qed.
Theorem fixed_overflow v : ~ (0 <= v < 2 ^ 32) -> serialize_int v = Err OverflowError.
Proof. intros H; apply to_bytes_bad; exact H. Qed.
Theorem fixed_short s : (length s < 4)%nat -> deserialize_int s = Err StreamError.
Proof. intros H; unfold deserialize_int; destruct (Nat.ltb_spec (length s) 4); [reflexivity|lia]. Qed.

(** ** Patches *)
(** the aligned item list the writer produces *)
Fixpoint align (nb : bool) (p : list (pitem Z)) : list (pitem Z) :=
  match p with
  | [] => []
  | PData d :: p' => (if nb then [] else [PSlice (0%nat, Some 0%nat)]) ++ PData d :: align false p'
  | PSlice s :: p' => (if nb then [PData []] else []) ++ PSlice s :: align true p'
  end.
(** encoding of aligned items; the flag is the kind expected next *)
Inductive penc : bool -> list (pitem Z) -> list Z -> Prop :=
| E_nil nb : penc nb [] []
| E_data d n p s : venc (Z.of_nat (length d)) n -> penc false p s -> penc true (PData d :: p) (n ++ d ++ s)
| E_slice i j a b p s : venc (Z.of_nat i) a -> venc (Z.of_nat j) b -> penc true p s ->
    penc false (PSlice (i, Some j) :: p) (a ++ b ++ s).

Lemma venc0 : vserialize_int 0 = Ok [0] /\ venc 0 [0].
Proof. split; [reflexivity|apply V1; lia]. Qed.
Lemma serialize_penc p : patch_fits p -> forall nb, exists s, serialize_loop nb p = Ok s /\ penc nb (align nb p) s.
Proof.
  induction 1 as [|i p Hi Hp IH]; intros nb; [exists []; split; [reflexivity|constructor]|].
  destruct venc0 as [Z0 Z1].
  destruct i as [d|[i [j|]]]; cbn [serialize_loop item_fits] in *; [| |contradiction].
  - destruct (vserialize_venc _ Hi) as [n [Hn En]]; destruct (IH false) as [s [Hs Es]].
    destruct nb; cbn [bind align app].
    + rewrite Hn; cbn [bind]; rewrite Hs; cbn [bind]; eexists; split; [reflexivity|]; now constructor.
    + rewrite Z0; cbn [bind]; rewrite Hn; cbn [bind]; rewrite Hs; cbn [bind].
      eexists; split; [reflexivity|]; rewrite <- app_assoc; apply E_slice; auto; now constructor.
  - destruct Hi as [Hi Hj]; destruct (vserialize_venc _ Hi) as [a [Ha Ea]]; destruct (vserialize_venc _ Hj) as [b [Hb Eb]].
    destruct (IH true) as [s [Hs Es]]; unfold vserialize_bound.
    destruct nb; cbn [bind align app].
    + rewrite Z0; cbn [bind]; rewrite Ha; cbn [bind]; rewrite Hb; cbn [bind]; rewrite Hs; cbn [bind].
      eexists; split; [reflexivity|]; apply (E_data [] [0] _ (a ++ b ++ s)); [exact Z1|now constructor].
    + rewrite Ha; cbn [bind]; rewrite Hb; cbn [bind]; rewrite Hs; cbn [bind].
      eexists; split; [reflexivity|]; now constructor.
Qed.
Lemma serialize_bad p : ~ patch_fits p -> forall nb, exists e, serialize_loop nb p = Err e /\ (e = OverflowError \/ e = TypeError).
Proof.
  induction p as [|i p IH]; intros H nb; [elim H; constructor|].
  destruct venc0 as [Z0 _].
  assert (D : forall v, u64 v \/ ~ u64 v) by (unfold u64; intros; lia).
  assert (NB : forall nb (i : pitem Z), exists pad, match i, nb with
      | PSlice _, true => vserialize_int 0
      | PData _, false => let* a := vserialize_int 0 in let* b := vserialize_int 0 in Ok (a ++ b)
      | _, _ => Ok []
      end = Ok pad).
  { intros nb' i'; destruct i', nb'; rewrite ?Z0; cbn [bind]; eauto. }
  destruct (NB nb i) as [pad HP]; cbn [serialize_loop]; rewrite HP; cbn [bind]; clear NB HP.
  destruct i as [d|[i j]].
  - destruct (D (Z.of_nat (length d))) as [Hd|Hd].
    + destruct (vserialize_venc _ Hd) as [n [Hn _]]; rewrite Hn; cbn [bind].
      destruct (IH ltac:(intros Hp; apply H; constructor; auto) false) as [e [-> He]]; cbn [bind]; eauto.
    + rewrite (vserialize_bad _ Hd); cbn [bind]; eauto.
  - destruct (D (Z.of_nat i)) as [Hi|Hi]; [|rewrite (vserialize_bad _ Hi); cbn [bind]; eauto].
    destruct (vserialize_venc _ Hi) as [a [Ha _]]; rewrite Ha; cbn [bind].
    destruct j as [j|]; cbn [vserialize_bound bind]; [|eauto].
    destruct (D (Z.of_nat j)) as [Hj|Hj]; [|rewrite (vserialize_bad _ Hj); cbn [bind]; eauto].
    destruct (vserialize_venc _ Hj) as [b [Hb _]]; rewrite Hb; cbn [bind].
    destruct (IH ltac:(intros Hp; apply H; constructor; [split; assumption|assumption]) true) as [e [-> He]]; cbn [bind]; eauto.
Qed.

Lemma venc_nonempty v b : venc v b -> b <> [].
Proof. intros H ->; apply venc_length in H; cbn in H; lia. Qed.
Lemma deserialize_S fuel nb s : s <> [] -> deserialize_loop (S fuel) nb s =
  if nb then
    match vdeserialize_int s with
    | Err e => ([], Some e)
    | Ok (len, stream1) =>
      if len =? 0 then deserialize_loop fuel false stream1
      else if Z.of_nat (length stream1) <? len then ([], Some StreamError)
      else
        let '(items, e) := deserialize_loop fuel false (skipn (Z.to_nat len) stream1) in
        (PData (firstn (Z.to_nat len) stream1) :: items, e)
    end
  else
    match vdeserialize_int s with
    | Err e => ([], Some e)
    | Ok (start, stream1) =>
      match vdeserialize_int stream1 with
      | Err e => ([], Some e)
      | Ok (stop, stream2) =>
        let '(items, e) := deserialize_loop fuel true stream2 in
        if start =? stop then (items, e)
        else (PSlice (Z.to_nat start, Some (Z.to_nat stop)) :: items, e)
      end
    end.
Proof. destruct s; [now intros H; elim H|reflexivity]. Qed.

Lemma des_penc nb p s : penc nb p s -> forall fuel, (length s <= fuel)%nat ->
  deserialize_loop fuel nb s = (trimmed p, None).
Proof.
  induction 1 as [nb|d n p s Hn Hp IH|i j a b p s Ha Hb Hp IH]; intros fuel Hf.
  - destruct fuel; reflexivity.
  - pose proof (venc_length _ _ Hn) as [HL _]; rewrite !app_length in Hf.
    destruct fuel as [|fuel]; [lia|].
    rewrite deserialize_S by (pose proof (venc_nonempty _ _ Hn); destruct n; [easy|discriminate]).
    rewrite (vdes_enc _ _ (d ++ s) Hn).
    destruct (Z.eqb_spec (Z.of_nat (length d)) 0) as [H0|H0].
    + destruct d; [|cbn in H0; lia]; cbn [app]; rewrite IH by lia; reflexivity.
    + destruct (Z.ltb_spec (Z.of_nat (length (d ++ s))) (Z.of_nat (length d))) as [H1|H1]; [rewrite app_length in H1; lia|].
      rewrite Nat2Z.id, firstn_app, skipn_app, Nat.sub_diag, firstn_all2, skipn_all2 by lia; cbn [firstn skipn app].
      rewrite app_nil_r, IH by lia; destruct d; [cbn in H0; lia|reflexivity].
  - pose proof (venc_length _ _ Ha) as [HL _]; rewrite !app_length in Hf.
    destruct fuel as [|fuel]; [lia|].
    rewrite deserialize_S by (pose proof (venc_nonempty _ _ Ha); destruct a; [easy|discriminate]).
    rewrite (vdes_enc _ _ (b ++ s) Ha), (vdes_enc _ _ s Hb), IH by lia.
    unfold trimmed; cbn [filter idle].
    destruct (Z.eqb_spec (Z.of_nat i) (Z.of_nat j)), (Nat.eqb_spec i j); cbn [negb]; try lia; [reflexivity|].
    now rewrite !Nat2Z.id.
Qed.
Lemma trimmed_align p : forall nb, trimmed (align nb p) = trimmed p.
Proof.
  induction p as [|i p IH]; intros nb; [reflexivity|]; unfold trimmed in *.
  destruct i as [d|s]; cbn [align]; rewrite filter_app; destruct nb; cbn [filter idle negb app Nat.eqb]; now rewrite IH.
Qed.

Theorem patch_round_trip p : patch_fits p -> exists s, serialize_changeset p = Ok s /\
  deserialize_changeset s = (trimmed p, None).
Proof.
  intros H; destruct (serialize_penc p H true) as [s [Hs He]]; exists s; split; [exact Hs|].
  unfold deserialize_changeset; rewrite (des_penc _ _ _ He) by lia; now rewrite trimmed_align.
Qed.
Theorem patch_unserializable p : ~ patch_fits p -> exists e, serialize_changeset p = Err e /\ (e = OverflowError \/ e = TypeError).
Proof. intros H; exact (serialize_bad p H true). Qed.
Theorem trimmed_apply p (version : list Z) : apply (trimmed p) version = apply p version.
Proof.
  unfold apply, join_changes, trimmed; induction p as [|i p IH]; [reflexivity|]; cbn [filter map].
  destruct i as [[|x d]|[i [j|]]]; cbn [idle negb]; cbn [map concat]; rewrite ?IH; try reflexivity.
  destruct (Nat.eqb_spec i j) as [->|]; cbn [negb map concat]; rewrite IH; [|reflexivity].
  unfold sl, pyslice; cbn [fst snd]; rewrite Nat.sub_diag; reflexivity.
Qed.
(** a patch made by strip_* has no data item that would be dropped *)

(** ** Truncation *)
Lemma prefix_nil {A} (l : list A) : prefix [] l.
Proof. now exists l. Qed.
Lemma prefix_cons {A} (x : A) a b : prefix a b -> prefix (x :: a) (x :: b).
Proof. intros [c ->]; now exists c. Qed.
Lemma firstn_app_le {A} (a b : list A) n : (n <= length a)%nat -> firstn n (a ++ b) = firstn n a.
Proof. intros H; rewrite firstn_app; replace (n - length a)%nat with 0%nat by lia; now rewrite app_nil_r. Qed.
Lemma firstn_app_ge {A} (a b : list A) n : (length a <= n)%nat -> firstn n (a ++ b) = a ++ firstn (n - length a) b.
Proof. intros H; now rewrite firstn_app, firstn_all2. Qed.
Lemma firstn_nil_or {A} (l : list A) n : firstn n l = [] \/ firstn n l <> [].
Proof. destruct (firstn n l); [now left|right; discriminate]. Qed.

Lemma des_truncated nb p s : penc nb p s -> forall n fuel, (length (firstn n s) <= fuel)%nat ->
  exists items e, deserialize_loop fuel nb (firstn n s) = (items, e) /\ prefix items (trimmed p) /\ (e = None \/ e = Some StreamError).
Proof.
  induction 1 as [nb|d len p s Hn Hp IH|i j a b p s Ha Hb Hp IH]; intros n fuel Hf.
  - rewrite firstn_nil; exists [], None; split; [destruct fuel; reflexivity|split; [apply prefix_nil|auto]].
  - destruct (firstn_nil_or (len ++ d ++ s) n) as [->|Hne].
    { exists [], None; split; [destruct fuel; reflexivity|split; [apply prefix_nil|auto]]. }
    destruct fuel as [|fuel]; [destruct (firstn n (len ++ d ++ s)); [easy|cbn in Hf; lia]|].
    pose proof (venc_length _ _ Hn) as [HL _].
    rewrite deserialize_S by exact Hne.
    destruct (lt_dec n (length len)) as [Hl|Hl].
    { rewrite firstn_app_le, (venc_truncated _ _ _ Hn Hl) by lia; exists [], (Some StreamError); split; [reflexivity|split; [apply prefix_nil|auto]]. }
    rewrite firstn_app_ge in * by lia; rewrite app_length in Hf; rewrite (vdes_enc _ _ _ Hn).
    set (k := (n - length len)%nat).
    destruct (Z.eqb_spec (Z.of_nat (length d)) 0) as [H0|H0].
    + destruct d; [|cbn in H0; lia]; cbn [app]; apply (IH k fuel); cbn [app] in Hf; fold k in Hf; lia.
    + destruct (Z.ltb_spec (Z.of_nat (length (firstn k (d ++ s)))) (Z.of_nat (length d))) as [H1|H1].
      { exists [], (Some StreamError); split; [reflexivity|split; [apply prefix_nil|auto]]. }
      assert (Hk : (length d <= k)%nat).
      { rewrite firstn_length in H1; lia. }
      fold k in Hf; rewrite firstn_app_ge in * by exact Hk; rewrite app_length in Hf.
      rewrite Nat2Z.id, firstn_app, skipn_app, Nat.sub_diag, firstn_all, skipn_all; cbn [firstn skipn app].
      destruct (IH (k - length d)%nat fuel) as (items & e & -> & HP & He); [lia|].
      rewrite app_nil_r; exists (PData d :: items), e; split; [reflexivity|split; [|exact He]].
      destruct d; [cbn in H0; lia|]; now apply prefix_cons.
  - destruct (firstn_nil_or (a ++ b ++ s) n) as [->|Hne].
    { exists [], None; split; [destruct fuel; reflexivity|split; [apply prefix_nil|auto]]. }
    destruct fuel as [|fuel]; [destruct (firstn n (a ++ b ++ s)); [easy|cbn in Hf; lia]|].
    pose proof (venc_length _ _ Ha) as [HL _].
    rewrite deserialize_S by exact Hne.
    destruct (lt_dec n (length a)) as [Hl|Hl].
    { rewrite firstn_app_le, (venc_truncated _ _ _ Ha Hl) by lia; exists [], (Some StreamError); split; [reflexivity|split; [apply prefix_nil|auto]]. }
    rewrite firstn_app_ge in * by lia; rewrite app_length in Hf; rewrite (vdes_enc _ _ _ Ha).
    set (k := (n - length a)%nat).
    destruct (lt_dec k (length b)) as [Hk|Hk].
    { rewrite firstn_app_le, (venc_truncated _ _ _ Hb Hk) by lia; exists [], (Some StreamError); split; [reflexivity|split; [apply prefix_nil|auto]]. }
    fold k in Hf; rewrite firstn_app_ge in * by lia; rewrite app_length in Hf; rewrite (vdes_enc _ _ _ Hb).
    destruct (IH (k - length b)%nat fuel) as (items & e & -> & HP & He); [lia|].
    unfold trimmed; cbn [filter idle].
    destruct (Z.eqb_spec (Z.of_nat i) (Z.of_nat j)), (Nat.eqb_spec i j); cbn [negb]; try lia.
    + exists items, e; auto.
    + exists (PSlice (Z.to_nat (Z.of_nat i), Some (Z.to_nat (Z.of_nat j))) :: items), e; rewrite !Nat2Z.id.
      split; [reflexivity|split; [now apply prefix_cons|exact He]].
Qed.
Theorem truncated_patch p s : serialize_changeset p = Ok s -> forall n, exists items e,
  deserialize_changeset (firstn n s) = (items, e) /\ prefix items (trimmed p) /\ (e = None \/ e = Some StreamError).
Proof.
  intros Hs n; assert (Hf : patch_fits p).
  { assert (D : forall i, {item_fits i} + {~ item_fits i}).
    { assert (U : forall v, {u64 v} + {~ u64 v}).
      { intros v; unfold u64; destruct (Z_le_dec 0 v), (Z_lt_dec v (2 ^ 64)); [left|right|right|right]; lia. }
      intros [d|[i [j|]]]; cbn; [apply U| |right; tauto].
      destruct (U (Z.of_nat i)), (U (Z.of_nat j)); [left|right|right|right]; tauto. }
    destruct (Forall_dec _ D p) as [H|H]; [exact H|].
    destruct (patch_unserializable p H) as [e [He _]]; congruence. }
  destruct (serialize_penc p Hf true) as [s' [Hs' He]].
  unfold serialize_changeset in Hs; rewrite Hs' in Hs; injection Hs as ->.
  rewrite <- (trimmed_align p true); now apply (des_truncated _ _ _ He).
Qed.

(** ** Patches made by find_changeset *)
Local Open Scope nat_scope.
Section Made.
Context {T : Type} {E : Teq T} {O : TeqOk T}.
(** an item of a stripped patch: non-empty data not longer than [n], or a
    non-empty slice of a sequence of length [k] *)
Definition made_item (n k : nat) (i : pitem T) : Prop :=
  match i with
  | PData d => 0 < length d <= n
  | PSlice (s, Some e) => s < e <= k
  | PSlice (_, None) => False
  end.
Lemma made_cons n k i p : made_item n k i -> Forall (made_item n k) p -> Forall (made_item n k) (i :: p).
Proof. constructor; assumption. Qed.
Lemma seg_le (l : list T) s e : length (seg l s e) <= length l.
Proof. unfold seg, slice; rewrite firstn_length, skipn_length; lia. Qed.
Lemma good_made (o m : list T) s1 e1 s2 e2 c : good o m s1 e1 s2 e2 c -> e1 <= length o -> e2 <= length m ->
  Forall (made_item (length m) (length o)) (strip_forward (as_change_stream c)) /\
  Forall (made_item (length o) (length m)) (strip_reverse (as_change_stream c)).
Proof.
  induction 1 as [s1 e1 s2 e2 os ms Hd H1 H2|s1 e1 s2 e2 pa pb l p s HL Hl Ho Hm Gp IHp Gs IHs]; intros L1 L2; cbn [as_change_stream].
  - pose proof (seg_le o s1 e1) as Lo; pose proof (seg_le m s2 e2) as Lm.
    destruct (seg m s2 e2) as [|y ys], (seg o s1 e1) as [|x xs]; cbn in *; (split; [repeat (apply made_cons; [cbn; lia|]); apply Forall_nil|repeat (apply made_cons; [cbn; lia|]); apply Forall_nil]).
  - destruct IHp as [P1 P2]; [lia|lia|]; destruct IHs as [S1 S2]; [lia|lia|].
    unfold strip_forward, strip_reverse in *; rewrite !flat_map_app; cbn [flat_map app].
    split; apply Forall_app; (split; [assumption|apply made_cons; [cbn; lia|assumption]]).
Qed.
End Made.

Theorem made_patch_round_trip (o m : list Z) : (Z.of_nat (length o) < 2 ^ 64)%Z -> (Z.of_nat (length m) < 2 ^ 64)%Z ->
  exists c, find_changeset o m = Ok c /\
    (exists s, serialize_changeset (strip_forward (as_change_stream c)) = Ok s /\
       deserialize_changeset s = (strip_forward (as_change_stream c), None) /\
       apply (fst (deserialize_changeset s)) o = m) /\
    (exists s, serialize_changeset (strip_reverse (as_change_stream c)) = Ok s /\
       deserialize_changeset s = (strip_reverse (as_change_stream c), None) /\
       apply (fst (deserialize_changeset s)) m = o).
Proof.
  intros Ho Hm; destruct (find_changeset_ok o m) as [c [Hc G]]; exists c; split; [exact Hc|].
  destruct (good_made _ _ _ _ _ _ _ G (le_n _) (le_n _)) as [F R].
  assert (X : forall n k p, (Z.of_nat n < 2 ^ 64)%Z -> (Z.of_nat k < 2 ^ 64)%Z -> Forall (made_item n k) p ->
    exists s, serialize_changeset p = Ok s /\ deserialize_changeset s = (p, None)).
  { intros n k p Hn Hk Hp; assert (Hf : patch_fits p).
    { eapply Forall_impl; [|exact Hp]; intros [d|[i [j|]]]; cbn; unfold u64; lia. }
    assert (Ht : trimmed p = p).
    { clear Hf; induction Hp as [|i p Hi Hp IH]; [reflexivity|]; unfold trimmed in *; cbn [filter].
      assert (idle i = false) as -> by (destruct i as [[|x d]|[i [j|]]]; cbn in *; try reflexivity; try lia; apply Nat.eqb_neq; lia).
      cbn [negb]; now rewrite IH. }
    destruct (patch_round_trip p Hf) as [s [Hs Hd]]; exists s; rewrite Ht in Hd; auto. }
  split.
  - destruct (X _ _ _ Hm Ho F) as [s [Hs Hd]]; exists s; split; [exact Hs|split; [exact Hd|]]; rewrite Hd; cbn [fst].
    destruct (forward_patch o m) as [c' [Hc' [_ [HF _]]]]; assert (c' = c) as -> by congruence; exact HF.
  - destruct (X _ _ _ Ho Hm R) as [s [Hs Hd]]; exists s; split; [exact Hs|split; [exact Hd|]]; rewrite Hd; cbn [fst].
    destruct (reverse_patch o m) as [c' [Hc' [_ [HF _]]]]; assert (c' = c) as -> by congruence; exact HF.
Qed.
