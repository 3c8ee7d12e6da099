(** Manifest documents round-trip. *)
From Coq Require Import ZArith Lia.
From Verif Require Import Base Tokenizers SpecTokenizers Utf8Proofs Json Manifest SpecVersions SpecManifest JsonProofs.
Local Open Scope Z_scope.

Definition key_text (k : tag) : list Z := match k with TStr s => s | TInt n => dump_int n end.
Definition tag_chars (t : tag) : Prop := match t with TStr s => chars s | TInt _ => True end.
Definition value_back (t : tag) (j : json) : Prop :=
  match t with TStr s => exists s', rejoined s s' /\ j = JStr s' | TInt n => j = JInt n end.
Definition item_back (e : tag * tag) (p : list Z * json) : Prop :=
  rejoined (key_text (fst e)) (fst p) /\ value_back (snd e) (snd p).
Definition item_chars (e : tag * tag) : Prop := tag_chars (fst e) /\ tag_chars (snd e).

Lemma dump_key_str k : dump_key k = dump_str (key_text k).
Proof. now destruct k. Qed.
Lemma printable_chars s : printable s -> chars s.
Proof. intros H. eapply Forall_impl; [|exact H]. intros; cbn in *; lia. Qed.
Lemma key_chars k : tag_chars k -> chars (key_text k).
Proof. destruct k as [s|n]; [auto|]. intros _. apply printable_chars, dump_int_printable. Qed.
Lemma dump_value_printable t : tag_chars t -> printable (dump_value t).
Proof. destruct t as [s|n]; cbn; intros H; [now apply dump_str_printable|apply dump_int_printable]. Qed.
Lemma dump_item_printable e : item_chars e -> printable (dump_item e).
Proof.
  intros [H1 H2]. unfold dump_item. rewrite dump_key_str.
  apply Forall_app; split; [now apply dump_str_printable, key_chars|].
  constructor; [lia|]. now apply dump_value_printable.
Qed.

Lemma skip_ws_nop c r : is_ws c = false -> skip_ws (c :: r) = c :: r.
Proof. intros H. cbn. now rewrite H. Qed.

Lemma word_prefix c r : (c = 45 \/ digit c) -> scan_number (c :: r) <> None -> scan_word (c :: r) = scan_number (c :: r).
Proof.
  intros Hc Hs. unfold scan_word. unfold digit in Hc. cbn [strip_prefix].
  rewrite (proj2 (Z.eqb_neq 110 c)), (proj2 (Z.eqb_neq 116 c)), (proj2 (Z.eqb_neq 102 c)) by lia.
  now destruct (scan_number (c :: r)).
Qed.

Lemma scan_dump_value f t r : tag_chars t -> ends_number r ->
  exists j, value_back t j /\ scan_value (S f) (dump_value t ++ r) = Some (j, r).
Proof.
  intros Ht Hr. destruct t as [s|n]; cbn [dump_value].
  - destruct (scan_dump (length s) s r ltac:(lia) Ht) as [s' [Hs Sc]].
    exists (JStr s'). split; [now exists s'|].
    unfold dump_str. cbn [app]. rewrite <- app_assoc. cbn [app]. cbn [scan_value].
    change (34 =? 34) with true. cbn iota. now rewrite Sc.
  - exists (JInt n). split; [reflexivity|].
    pose proof (scan_dump_int n r Hr) as Sc.
    destruct (dump_int_head n) as [c [ds [K [Hc Hd]]]]. rewrite K in *. cbn [app] in *.
    cbn [scan_value]. unfold digit in Hc.
    rewrite (proj2 (Z.eqb_neq c 34)), (proj2 (Z.eqb_neq c 123)), (proj2 (Z.eqb_neq c 91)) by lia.
    rewrite word_prefix; [assumption|unfold digit; lia|congruence].
Qed.
Lemma dump_value_head t r : exists c l, dump_value t ++ r = c :: l /\ is_ws c = false.
Proof.
  destruct t as [s|n]; cbn [dump_value].
  - exists 34, ((flat_map dump_char s ++ [34]) ++ r). now split.
  - destruct (dump_int_head n) as [c [ds [-> [Hc _]]]]. exists c, (ds ++ r). split; [reflexivity|].
    unfold digit in Hc. unfold is_ws.
    rewrite (proj2 (Z.eqb_neq c 32)), (proj2 (Z.eqb_neq c 9)), (proj2 (Z.eqb_neq c 10)), (proj2 (Z.eqb_neq c 13)) by lia.
    reflexivity.
Qed.

(** the members of the object, from behind the first quote *)
Lemma scan_dump_members : forall m e f r, Forall item_chars (e :: m) -> (length m < f)%nat ->
  exists l pairs, join_with [44; 10] (map dump_item (e :: m)) = 34 :: l /\
    Forall2 item_back (e :: m) pairs /\
    scan_members (S f) (l ++ 125 :: r) = Some (pairs, r).
Proof.
  induction m as [|e' m IH]; intros [k t] f r Hc Hf; inversion Hc as [|? ? [Hk Ht] Hm]; subst; cbn [fst snd] in *.
  - cbn [map join_with]. unfold dump_item; cbn [fst snd]. rewrite dump_key_str. unfold dump_str. cbn [app].
    destruct f as [|f]; [lia|].
    destruct (scan_dump_value f t (125 :: r) Ht (or_intror eq_refl)) as [j [Hj Sj]].
    destruct (scan_dump (length (key_text k)) (key_text k) (58 :: dump_value t ++ 125 :: r) ltac:(lia) (key_chars _ Hk))
      as [s' [Hs Sc]].
    destruct (dump_value_head t (125 :: r)) as [c [l [Hh Hw]]].
    eexists _, [(s', j)].
    split; [reflexivity|]. split; [constructor; [|constructor]; split; [exact Hs|exact Hj]|].
    rewrite <- !app_assoc. cbn [app]. remember (S f) as g eqn:Eg. cbn [scan_members]. rewrite Sc.
    rewrite skip_ws_nop by reflexivity. change (58 =? 58) with true. cbn iota.
    rewrite Hh, skip_ws_nop, <- Hh by assumption. subst g. rewrite Sj.
    rewrite skip_ws_nop by reflexivity. change (125 =? 125) with true. reflexivity.
  - destruct f as [|f]; [lia|]. cbn [length] in Hf.
    destruct (IH e' f r Hm ltac:(lia)) as [l' [pairs' [Hl [HF Sm]]]].
    set (tail := map dump_item (e' :: m)) in *.
    assert (J : join_with [44; 10] (map dump_item ((k, t) :: e' :: m)) = dump_item (k, t) ++ [44; 10] ++ join_with [44; 10] tail)
      by reflexivity.
    rewrite J, Hl. unfold dump_item; cbn [fst snd]. rewrite dump_key_str. unfold dump_str. cbn [app].
    destruct (scan_dump_value f t (44 :: 10 :: 34 :: l' ++ 125 :: r) Ht (or_introl eq_refl)) as [j [Hj Sj]].
    destruct (scan_dump (length (key_text k)) (key_text k) (58 :: dump_value t ++ 44 :: 10 :: 34 :: l' ++ 125 :: r) ltac:(lia) (key_chars _ Hk))
      as [s' [Hs Sc]].
    destruct (dump_value_head t (44 :: 10 :: 34 :: l' ++ 125 :: r)) as [c [l [Hh Hw]]].
    eexists _, ((s', j) :: pairs').
    split; [reflexivity|]. split; [constructor; [split; [exact Hs|exact Hj]|exact HF]|].
    rewrite <- !app_assoc. cbn [app].
    remember (S f) as g eqn:Eg. cbn [scan_members]. rewrite Sc.
    rewrite skip_ws_nop by reflexivity. change (58 =? 58) with true. cbn iota.
    rewrite Hh, skip_ws_nop, <- Hh by assumption. subst g. rewrite Sj.
    rewrite skip_ws_nop by reflexivity. change (44 =? 125) with false. change (44 =? 44) with true. cbn iota.
    change (skip_ws (10 :: 34 :: l' ++ 125 :: r)) with (34 :: l' ++ 125 :: r).
    change (34 =? 34) with true. cbn iota. now rewrite Sm.
Qed.

Lemma items_length (m : manifest) : (length m <= length (join_with [44%Z; 10%Z] (map dump_item m)))%nat.
Proof.
  assert (P : forall e, (1 <= length (dump_item e))%nat).
  { intros e. unfold dump_item. rewrite !app_length. cbn. lia. }
  induction m as [|e [|e' m] IH].
  - cbn; lia.
  - cbn. apply P.
  - assert (J : join_with [44; 10] (map dump_item (e :: e' :: m)) =
      dump_item e ++ [44; 10] ++ join_with [44; 10] (map dump_item (e' :: m))) by reflexivity.
    rewrite J, !app_length. specialize (P e). cbn [length] in *. lia.
Qed.

Lemma loads_dumps m : Forall item_chars m ->
  exists pairs, Forall2 item_back m pairs /\ loads (dumps m) = Ok (JObj (dict_of pairs)).
Proof.
  intros H. unfold dumps. destruct m as [|e m].
  { exists []. split; [constructor|reflexivity]. }
  set (J := join_with [44; 10] (map dump_item (e :: m))) in *.
  destruct (scan_dump_members m e (S (length J)) [] H) as [l [pairs [Hl [HF Sm]]]].
  { pose proof (items_length (e :: m)) as L. fold J in L. cbn [length] in L. lia. }
  fold J in Hl. exists pairs. split; [assumption|].
  unfold loads. cbn [app]. change (123 =? 65279) with false. cbn iota.
  rewrite skip_ws_nop by reflexivity.
  replace (length (123 :: J ++ [125])) with (S (S (length J))) by (cbn [length]; rewrite app_length; cbn; lia).
  remember (S (length J)) as g eqn:Eg. cbn [scan_value]. change (123 =? 34) with false. change (123 =? 123) with true. cbn iota.
  rewrite Hl. cbn [app]. rewrite skip_ws_nop by reflexivity.
  change (34 =? 125) with false. change (34 =? 34) with true. cbn iota. now rewrite Sm.
Qed.

(** * Bytes *)
Lemma printable_ascii s : printable s -> ascii s.
Proof. intros H. eapply Forall_impl; [|exact H]. intros; cbn in *; lia. Qed.
Lemma join_ascii l : Forall printable l -> ascii (join_with [44; 10] l).
Proof.
  intros H. induction H as [|x [|y l] Hx H IH]; [constructor|now apply printable_ascii|].
  change (join_with [44; 10] (x :: y :: l)) with (x ++ [44; 10] ++ join_with [44; 10] (y :: l)).
  apply Forall_app; split; [now apply printable_ascii|]. constructor; [lia|]. constructor; [lia|exact IH].
Qed.
Lemma dumps_ascii m : Forall item_chars m -> ascii (dumps m).
Proof.
  intros H. unfold dumps. constructor; [lia|]. apply Forall_app; split; [|constructor; [lia|constructor]].
  apply join_ascii. rewrite Forall_map. eapply Forall_impl; [|exact H]. intros; now apply dump_item_printable.
Qed.
Lemma ascii_encode s : ascii s -> utf8_encode s = Ok s.
Proof.
  intros H. unfold utf8_encode. replace (existsb is_surrogate s) with false.
  - f_equal. induction H as [|c s Hc H IH]; [reflexivity|]. cbn [flat_map]. rewrite IH. unfold utf8_char.
    now rewrite (proj2 (Z.ltb_lt c 128)) by lia.
  - symmetry. induction H as [|c s Hc H IH]; [reflexivity|]. cbn [existsb]. rewrite IH. unfold is_surrogate.
    now rewrite (proj2 (Z.leb_gt 55296 c)) by lia.
Qed.
Lemma ascii_scalar s : ascii s -> Forall scalar_value s.
Proof. intros H. eapply Forall_impl; [|exact H]. unfold scalar_value; intros; cbn in *; lia. Qed.
Lemma ascii_flat s : ascii s -> flat_map utf8_char s = s.
Proof.
  intros H. pose proof (ascii_encode s H) as K. unfold utf8_encode in K. destruct (existsb is_surrogate s); [discriminate|].
  now injection K.
Qed.
Lemma ascii_decode s : ascii s -> utf8_decode s = Some s.
Proof. intros H. rewrite <- (ascii_flat s H) at 1. now apply utf8_decode_encode, ascii_scalar. Qed.
Lemma ascii_encodable k s : ascii s -> encodable k (CBytes s).
Proof.
  intros H. split.
  - cbn. eapply Forall_impl; [|exact H]. intros; cbn in *; lia.
  - destruct k; try exact I; exists s; (split; [now apply ascii_scalar|symmetry; now apply ascii_flat]).
Qed.

(** * The documents *)
Lemma docs_exact m : Forall item_chars m -> exists doc pairs,
  manifest_to_doc m = Ok doc /\ ascii doc /\ Forall2 item_back m pairs /\
  doc_to_manifest doc = Ok (JObj (dict_of pairs)).
Proof.
  intros H. destruct (loads_dumps m H) as [pairs [HF Hl]]. pose proof (dumps_ascii m H) as A.
  exists (dumps m), pairs. split; [now apply ascii_encode|]. split; [assumption|]. split; [assumption|].
  unfold doc_to_manifest. now rewrite ascii_decode.
Qed.

Lemma dict_of_NoDup {V} (pairs : list (list Z * V)) : NoDup (map fst pairs) -> dict_of pairs = pairs.
Proof.
  unfold dict_of. intros N.
  assert (G : forall acc, NoDup (map fst (acc ++ pairs)) ->
    fold_left (fun d kv => dset d (fst kv) (snd kv)) pairs acc = acc ++ pairs).
  { clear N. induction pairs as [|[k v] pairs IH]; intros acc N; [now rewrite app_nil_r|].
    cbn [fold_left fst snd]. replace (dset acc k v) with (acc ++ [(k, v)]).
    - rewrite IH; [now rewrite <- app_assoc|]. now rewrite <- app_assoc.
    - rewrite map_app in N. cbn in N. apply NoDup_remove_2 in N. rewrite in_app_iff in N.
      assert (N' : ~ In k (map fst acc)) by tauto. clear - N'.
      induction acc as [|[k' v'] acc IH]; [reflexivity|]. cbn in *.
      destruct (teq k' k) eqn:Ek; [apply teq_ok in Ek; tauto|]. f_equal. apply IH; tauto. }
  now apply (G []).
Qed.

Lemma manifest_ok_chars m : manifest_ok m -> Forall item_chars m.
Proof.
  intros [_ H]. apply Forall_forall. intros [k t] Hin. destruct (H k t Hin) as [[s [-> [Hs _]]] Ht].
  split; [exact Hs|]. destruct t; cbn in *; [apply Ht|exact I].
Qed.
Lemma back_exact m pairs : (forall k t, In (k, t) m -> name_ok k /\ tag_ok t) -> Forall2 item_back m pairs ->
  pairs = map (fun e => (str_of (fst e), json_of (snd e))) m.
Proof.
  intros H HF. induction HF as [|[k t] [s j] m pairs [R1 R2] HF IH]; [reflexivity|]. cbn [fst snd map] in *.
  destruct (H k t (or_introl eq_refl)) as [[s0 [-> [_ Hs]]] Ht]. cbn in R1. f_equal.
  - f_equal; [now apply rejoined_text|]. destruct t as [s1|n]; cbn in *; [|assumption].
    destruct R2 as [s' [R2 ->]]. f_equal. apply rejoined_text; [apply Ht|exact R2].
  - apply IH. intros; apply H; now right.
Qed.
Lemma names_NoDup m : manifest_ok m -> NoDup (map (fun e => str_of (fst e)) m).
Proof.
  intros [N H]. unfold dkeys in N. induction m as [|[k t] m IH]; [constructor|].
  cbn in *. inversion N as [|? ? N1 N2]; subst. constructor.
  - intros K. apply N1. apply in_map_iff in K as [[k' t'] [E K]]. cbn in E.
    destruct (H k t (or_introl eq_refl)) as [[s [-> _]] _]. destruct (H k' t' (or_intror K)) as [[s' [-> _]] _].
    cbn in E. subst. apply in_map_iff. now exists (TStr s, t').
  - apply IH; auto.
Qed.

Theorem docs_ok m : manifest_ok m -> exists doc,
  manifest_to_doc m = Ok doc /\ doc_to_manifest doc = Ok (as_dict m) /\ ascii doc.
Proof.
  intros H. destruct (docs_exact m (manifest_ok_chars m H)) as [doc [pairs [H1 [H2 [HF H3]]]]].
  exists doc. split; [assumption|]. split; [|assumption]. rewrite H3. unfold as_dict.
  rewrite (back_exact m pairs (proj2 H) HF). rewrite dict_of_NoDup; [reflexivity|].
  rewrite map_map. cbn. now apply names_NoDup.
Qed.
Corollary doc_storable k m doc : manifest_ok m -> manifest_to_doc m = Ok doc ->
  Z.of_nat (length doc) < 2 ^ 63 -> storable k doc.
Proof.
  intros H Hd Hl. destruct (docs_ok m H) as [doc' [H1 [_ A]]]. rewrite Hd in H1. injection H1 as <-.
  split; [now apply ascii_encodable|assumption].
Qed.

(** * Lines *)
Lemma split_nl_app x r : ~ In 10 x -> split_nl (x ++ 10 :: r) = x :: split_nl r.
Proof.
  induction x as [|c x IH]; intros H; [reflexivity|]. cbn [app split_nl].
  rewrite (proj2 (Z.eqb_neq c 10)) by (intros ->; apply H; now left).
  rewrite IH by (intros K; apply H; now right). reflexivity.
Qed.
Lemma split_nl_one x : ~ In 10 x -> split_nl x = [x].
Proof.
  induction x as [|c x IH]; intros H; [reflexivity|]. cbn [split_nl].
  rewrite (proj2 (Z.eqb_neq c 10)) by (intros ->; apply H; now left).
  rewrite IH by (intros K; apply H; now right). reflexivity.
Qed.
Lemma printable_no_nl x : printable x -> ~ In 10 x.
Proof. intros H K. unfold printable in H. rewrite Forall_forall in H. specialize (H 10 K). lia. Qed.

Lemma split_items : forall l pre, ~ In 10 pre -> Forall printable l -> l <> [] ->
  length (split_nl (pre ++ join_with [44; 10] l ++ [125])) = length l /\
  forall i x, nth_error l i = Some x ->
    nth_error (split_nl (pre ++ join_with [44; 10] l ++ [125])) i =
    Some ((if (i =? 0)%nat then pre else []) ++ x ++ (if (S i =? length l)%nat then [125] else [44])).
Proof.
  induction l as [|x l IH]; intros pre Hp H Hn; [contradiction|].
  inversion H as [|? ? Hx Hl]; subst. pose proof (printable_no_nl x Hx) as Hx'.
  destruct l as [|y l].
  - cbn [join_with]. rewrite split_nl_one.
    + split; [reflexivity|]. intros [|[|i]] z Hz; cbn in Hz; try discriminate. injection Hz as <-. reflexivity.
    + rewrite !in_app_iff. intros [K|[K|[K|[]]]]; [exact (Hp K)|exact (Hx' K)|lia].
  - change (join_with [44; 10] (x :: y :: l)) with (x ++ [44; 10] ++ join_with [44; 10] (y :: l)).
    replace (pre ++ (x ++ [44; 10] ++ join_with [44; 10] (y :: l)) ++ [125])
      with ((pre ++ x ++ [44]) ++ 10 :: [] ++ join_with [44; 10] (y :: l) ++ [125])
      by (rewrite <- !app_assoc; reflexivity).
    rewrite split_nl_app by (rewrite !in_app_iff; intros [K|[K|[K|[]]]]; [exact (Hp K)|exact (Hx' K)|lia]).
    destruct (IH [] (fun K => K) Hl ltac:(discriminate)) as [L1 L2]. split; [cbn [length]; now rewrite L1|].
    intros [|i] z Hz; cbn [nth_error] in Hz |- *.
    + injection Hz as <-. reflexivity.
    + rewrite (L2 i z Hz). cbn [Nat.eqb length]. destruct (i =? 0)%nat; reflexivity.
Qed.

Lemma dump_item_inj e e' : manifest_ok [e] -> manifest_ok [e'] -> dump_item e = dump_item e' -> e = e'.
Proof.
  intros H H' E. destruct (docs_ok [e] H) as [doc [D1 [D2 _]]]. destruct (docs_ok [e'] H') as [doc' [D1' [D2' _]]].
  assert (K : dumps [e] = dumps [e']) by (unfold dumps; cbn [map join_with]; now rewrite E).
  unfold manifest_to_doc in *. rewrite K, D1' in D1. injection D1 as ->. rewrite D2' in D2. injection D2 as E1 E2.
  destruct e as [k t], e' as [k' t']. cbn [fst snd] in *.
  destruct (proj2 H k t (or_introl eq_refl)) as [[s [-> _]] _].
  destruct (proj2 H' k' t' (or_introl eq_refl)) as [[s' [-> _]] _].
  cbn in E1. subst. destruct t, t'; cbn in E2; congruence.
Qed.

Theorem doc_lines m doc : manifest_ok m -> manifest_to_doc m = Ok doc ->
  length (split_nl doc) = Nat.max 1 (length m) /\
  forall i e, nth_error m i = Some e -> nth_error (split_nl doc) i =
    Some ((if (i =? 0)%nat then [123] else []) ++ dump_item e ++ (if (S i =? length m)%nat then [125] else [44])).
Proof.
  intros H D. pose proof (manifest_ok_chars m H) as C. unfold manifest_to_doc in D.
  rewrite ascii_encode in D by now apply dumps_ascii. injection D as <-. unfold dumps.
  destruct m as [|e m].
  { split; [reflexivity|]. intros [|i] e K; discriminate. }
  destruct (split_items (map dump_item (e :: m)) [123]) as [L1 L2].
  - intros [K|[]]; lia.
  - rewrite Forall_map. eapply Forall_impl; [|exact C]. intros; now apply dump_item_printable.
  - discriminate.
  - rewrite L1, map_length. split; [cbn [length]; lia|]. intros i x Hx.
    rewrite (L2 i (dump_item x)); [now rewrite map_length|]. rewrite nth_error_map, Hx. reflexivity.
Qed.

(** exactly the strings without a surrogate pair come back *)
Theorem string_comes_back s doc j : chars s -> manifest_to_doc [(TStr [97], TStr s)] = Ok doc -> doc_to_manifest doc = Ok j ->
  (j = as_dict [(TStr [97], TStr s)] <-> ~ has_pair s).
Proof.
  intros Hs D1 D2.
  assert (C : Forall item_chars [(TStr [97], TStr s)]).
  { constructor; [|constructor]. split; cbn; [constructor; [lia|constructor]|assumption]. }
  destruct (docs_exact _ C) as [doc' [pairs [E1 [_ [HF E2]]]]]. rewrite D1 in E1. injection E1 as <-.
  rewrite D2 in E2. injection E2 as ->.
  inversion HF as [|x y l l' R HF2]; subst. inversion HF2; subst. destruct y as [k v], R as [R1 [s' [R2 R3]]].
  cbn [fst snd key_text] in *. subst v.
  assert (k = [97]) as ->.
  { apply rejoined_text; [|assumption]. intros [a [u [w [b [K _]]]]]. destruct a as [|? [|? ?]]; discriminate. }
  unfold as_dict, dict_of. cbn. split.
  - intros K. injection K as ->. intros Hp. apply rejoined_length in R2 as [_ R2]. specialize (R2 Hp). lia.
  - intros Hp. now rewrite (rejoined_text s s' Hp R2).
Qed.

(** names that are ints come back as strings *)
Theorem int_name_lost n t doc : tag_ok t -> manifest_to_doc [(TInt n, t)] = Ok doc ->
  doc_to_manifest doc = Ok (JObj [(dump_int n, json_of t)]).
Proof.
  intros Ht D.
  assert (C : Forall item_chars [(TInt n, t)]).
  { constructor; [|constructor]. split; cbn; [exact I|]. destruct t; cbn in *; [apply Ht|exact I]. }
  destruct (docs_exact _ C) as [doc' [pairs [E1 [_ [HF E2]]]]]. rewrite D in E1. injection E1 as <-. rewrite E2.
  inversion HF as [|x y l l' R HF2]; subst. inversion HF2; subst. destruct y as [k v], R as [R1 R2].
  cbn [fst snd key_text] in *.
  assert (k = dump_int n) as ->.
  { apply rejoined_text; [|assumption]. intros [a [u [w [b [K [Hu _]]]]]].
    pose proof (dump_int_printable n) as P. unfold printable in P. rewrite K, Forall_forall in P.
    specialize (P u ltac:(apply in_app_iff; right; now left)). unfold high in Hu. lia. }
  unfold dict_of. cbn. destruct t as [s|z]; cbn in *; [|now subst].
  destruct R2 as [s' [R2 ->]]. rewrite (rejoined_text s s' (proj2 Ht) R2). reflexivity.
Qed.
