(** The bytes copied when patches are written and read. *)
From Coq Require Import ZArith Lia.
From Verif Require Import Base Changesets Serialize SpecSerialize SerializeProofs SerializeCost SpecStorage.
Local Open Scope nat_scope.

(** * Reading *)
Lemma vdes_erase s : snd (vdeserialize_int_n s) = vdeserialize_int s.
Proof.
  unfold vdeserialize_int_n, vdeserialize_int. cbv zeta.
  repeat match goal with |- context[if ?c then _ else _] => destruct c end; reflexivity.
Qed.
Lemma des_erase fuel : forall nb s, snd (deserialize_loop_n fuel nb s) = deserialize_loop fuel nb s.
Proof.
  induction fuel as [|fuel IH]; intros nb [|a s]; cbn [deserialize_loop_n deserialize_loop]; try reflexivity.
  pose proof (vdes_erase (a :: s)) as V. destruct nb; destruct (vdeserialize_int_n (a :: s)) as [n [[v s1]|e]]; cbn [snd] in V; rewrite <- V; try reflexivity.
  - destruct (v =? 0)%Z; [rewrite <- (IH false s1); now destruct (deserialize_loop_n fuel false s1)|].
    destruct (Z.of_nat (length s1) <? v)%Z; [reflexivity|]. cbv zeta.
    rewrite <- (IH false). now destruct (deserialize_loop_n fuel false (skipn (Z.to_nat v) s1)) as [m [items e]].
  - pose proof (vdes_erase s1) as V1. destruct (vdeserialize_int_n s1) as [n2 [[w s2]|e]]; cbn [snd] in V1; rewrite <- V1; try reflexivity.
    rewrite <- (IH true). now destruct (deserialize_loop_n fuel true s2) as [m [items e]].
Qed.
Theorem deserialize_erase s : snd (deserialize_changeset_n s) = deserialize_changeset s.
Proof. apply des_erase. Qed.

Lemma firstn_byte s : Forall is_byte s -> 1 <= length s -> is_byte (from_bytes (firstn 1 s)).
Proof. intros F L. destruct s as [|a s]; [cbn in L; lia|]. inversion F; subst. cbn. unfold is_byte in *. lia. Qed.
Lemma ok_pair {A B} (a c : A) (b d : B) : Ok (a, b) = Ok (c, d) -> a = c /\ b = d.
Proof. intros [= -> ->]. now split. Qed.
Lemma vdes_cost s : Forall is_byte s -> fst (vdeserialize_int_n s) <= length s /\
  forall v s', snd (vdeserialize_int_n s) = Ok (v, s') ->
    fst (vdeserialize_int_n s) = length s /\ length s' < length s /\ Forall is_byte s' /\ (0 <= v)%Z.
Proof.
  intros F. unfold vdeserialize_int_n. destruct (Nat.ltb_spec (length s) 1) as [L|L].
  { cbn [fst snd]. split; [lia|discriminate]. }
  pose proof (firstn_byte s F L) as B. cbv zeta. set (a0 := from_bytes (firstn 1 s)) in *. unfold is_byte in B.
  assert (FS : forall k, Forall is_byte (skipn k s)).
  { intros k. rewrite <- (firstn_skipn k s) in F. now apply Forall_app in F. }
  assert (FP : forall l, Forall is_byte l -> (0 <= from_bytes l)%Z).
  { intros l Fl. unfold from_bytes. enough (forall acc, (0 <= acc)%Z -> (0 <= fold_left (fun a b => a * 256 + b) l acc)%Z) by (apply H; lia).
    induction Fl as [|x l Hx Fl IH]; intros acc Ha; [exact Ha|]. cbn [fold_left]. apply IH. unfold is_byte in Hx. lia. }
  assert (FB : forall k, Forall is_byte (pyslice s 1 (Some k))).
  { intros k. unfold pyslice. specialize (FS 1).
    match goal with |- Forall _ (firstn ?q _) => rewrite <- (firstn_skipn q (skipn 1 s)) in FS; now apply Forall_app in FS end. }
  assert (PL : forall k, length (pyslice s 1 (Some k)) = min k (length s) - 1).
  { intros k. unfold pyslice. rewrite firstn_length, skipn_length. lia. }
  destruct (Z.leb_spec 0 a0), (Z.leb_spec a0 240); cbn [andb]; try lia.
  { cbn [fst snd]. rewrite skipn_length. split; [lia|]. intros v s' Q. apply ok_pair in Q as [<- <-]. rewrite skipn_length. repeat split; auto; lia. }
  destruct (Z.leb_spec 241 a0), (Z.leb_spec a0 248); cbn [andb]; try lia.
  { destruct (Nat.ltb_spec (length s) 2); cbn [fst snd]; rewrite ?skipn_length, PL; (split; [lia|]); [discriminate|].
    intros v s' Q. pose proof (FP _ (FB 2)). apply ok_pair in Q as [<- <-]. rewrite skipn_length. repeat split; auto; lia. }
  destruct (Z.eqb_spec a0 249).
  { destruct (Nat.ltb_spec (length s) 3); cbn [fst snd]; rewrite ?skipn_length, ?PL; (split; [lia|]); [discriminate|].
    intros v s' Q. pose proof (FP _ (FB 3)). apply ok_pair in Q as [<- <-]. rewrite skipn_length. repeat split; auto; lia. }
  set (e := Z.to_nat (a0 - 246)). assert (4 <= e <= 9) by (unfold e; lia).
  destruct (Nat.ltb_spec (length s) e); cbn [fst snd]; rewrite ?skipn_length, ?PL; (split; [lia|]); [discriminate|].
  intros v s' Q. pose proof (FP _ (FB e)). apply ok_pair in Q as [<- <-]. rewrite skipn_length. repeat split; auto; lia.
Qed.

Lemma des_cost fuel : forall nb s, Forall is_byte s ->
  let '(n, (items, e)) := deserialize_loop_n fuel nb s in
  2 * n <= length s * (length s + 1) /\ 2 * length items <= length s /\ length items * (2 * length items + 1) <= n.
Proof.
  induction fuel as [|fuel IH]; intros nb [|a s] F; cbn [deserialize_loop_n]; try (cbn [length]; lia).
  pose proof (vdes_cost (a :: s) F) as [V1 V2]. set (L := length (a :: s)) in *.
  assert (L0 : 1 <= L) by (unfold L; cbn [length]; lia). clearbody L.
  destruct nb; destruct (vdeserialize_int_n (a :: s)) as [n [[v s1]|e]]; cbn [fst snd] in V1, V2.
  - destruct (V2 v s1 eq_refl) as [-> [L1 [F1 P]]].
    destruct (Z.eqb_spec v 0) as [->|Hv].
    + specialize (IH false s1 F1). destruct (deserialize_loop_n fuel false s1) as [m [items e]]. nia.
    + destruct (Z.ltb_spec (Z.of_nat (length s1)) v) as [X|X]; [cbn [length]; nia|]. cbv zeta.
      assert (F2 : Forall is_byte (skipn (Z.to_nat v) s1)).
      { rewrite <- (firstn_skipn (Z.to_nat v) s1) in F1. now apply Forall_app in F1. }
      specialize (IH false _ F2). destruct (deserialize_loop_n fuel false (skipn (Z.to_nat v) s1)) as [m [items e]].
      rewrite skipn_length in IH. rewrite firstn_length, skipn_length. cbn [length] in *.
      assert (1 <= Z.to_nat v <= length s1) by lia. nia.
  - cbn [length]. nia.
  - destruct (V2 v s1 eq_refl) as [-> [L1 [F1 P]]].
    pose proof (vdes_cost s1 F1) as [W1 W2]. destruct (vdeserialize_int_n s1) as [n2 [[w s2]|e]]; cbn [fst snd] in W1, W2.
    + destruct (W2 w s2 eq_refl) as [-> [L2 [F2 Q]]].
      specialize (IH true s2 F2). destruct (deserialize_loop_n fuel true s2) as [m [items e]].
      destruct (v =? w)%Z; cbn [length] in *; nia.
    + cbn [length]. assert (L = 1 \/ 2 <= L) as [->|?] by lia; nia.
  - cbn [length]. nia.
Qed.
Theorem reading_cost s : Forall is_byte s -> let '(n, (items, e)) := deserialize_changeset_n s in
  2 * n <= length s * (length s + 1) /\ length items * (2 * length items + 1) <= n.
Proof.
  intros F. pose proof (des_cost (length s) true s F) as H. unfold deserialize_changeset_n.
  destruct (deserialize_loop_n (length s) true s) as [n [items e]]. tauto.
Qed.

(** * Writing *)
Lemma ser_next p x nb (f : list Z -> list Z) k : (forall size nb, snd (serialize_loop_n size nb p) = serialize_loop nb p) ->
  snd (let '(m, rest) := serialize_loop_n x nb p in (k + m, let* rest := rest in Ok (f rest))) =
  (let* rest := serialize_loop nb p in Ok (f rest)).
Proof. intros H. rewrite <- (H x nb). now destruct (serialize_loop_n x nb p) as [m [r|e]]. Qed.
Lemma ser_erase p : forall size nb, snd (serialize_loop_n size nb p) = serialize_loop nb p.
Proof.
  destruct venc0 as [V0 _].
  induction p as [|[d|[i j]] p IH]; intros size nb; [reflexivity| |]; cbn [serialize_loop_n serialize_loop]; rewrite V0; cbn [bind].
  - destruct nb; cbn [bind]; (destruct (vserialize_int (Z.of_nat (length d))) as [n|e]; [|reflexivity]); cbn [bind].
    + now apply (ser_next p _ false (fun rest => _ ++ _ ++ _ ++ rest)).
    + now apply (ser_next p _ false (fun rest => _ ++ _ ++ _ ++ rest)).
  - destruct nb; cbn [bind]; (destruct (vserialize_int (Z.of_nat i)) as [n|e]; [|reflexivity]); cbn [bind];
      (destruct (vserialize_bound j) as [n'|e]; [|reflexivity]); cbn [bind].
    + now apply (ser_next p _ true (fun rest => _ ++ _ ++ _ ++ rest)).
    + now apply (ser_next p _ true (fun rest => _ ++ _ ++ _ ++ rest)).
Qed.
Theorem serialize_erase p : snd (serialize_changeset_n p) = serialize_changeset p.
Proof. apply ser_erase. Qed.

Lemma append_upper size x : 2 * append_n size x + size * (size + 1) <= (size + length x) * (size + length x + 1).
Proof. destruct size; [cbn; lia|]. destruct x; [cbn; lia|]. cbn [append_n length]. nia. Qed.
Lemma append_lower size x : x <> [] -> size + length x <= append_n size x + match size with O => length x | _ => 0 end.
Proof. destruct size, x; cbn [append_n length]; intros; try contradiction; lia. Qed.
Lemma vser_length v b : vserialize_int v = Ok b -> 1 <= length b.
Proof. intros H. apply vser_inv in H as [_ H]. apply venc_length in H. lia. Qed.

Lemma ser_upper p : forall size nb n d, serialize_loop_n size nb p = (n, Ok d) ->
  2 * n + size * (size + 1) <= (size + length d) * (size + length d + 1).
Proof.
  induction p as [|[d|[i j]] p IH]; intros size nb n r; cbn [serialize_loop_n].
  - intros [= <- <-]. cbn [length]. lia.
  - assert (P : exists n0 pad, (if nb then Ok (0, []) else
        let* a := vserialize_int 0 in let* b := vserialize_int 0 in Ok (append_n size a + append_n (size + length a) b, a ++ b)) = Ok (n0, pad) /\
        2 * n0 + size * (size + 1) <= (size + length pad) * (size + length pad + 1)).
    { destruct nb; [exists 0, []; split; [reflexivity|cbn [length]; lia]|]. destruct venc0 as [-> _]. cbn [bind]. eexists _, _. split; [reflexivity|].
      pose proof (append_upper size [0%Z]). pose proof (append_upper (size + length [0%Z]) [0%Z]). rewrite app_length. cbn [length] in *. lia. }
    destruct P as [n0 [pad [P B0]]].
    replace (match nb with true => Ok (0, []) | false => _ end) with (Ok (n0, pad)) by (rewrite <- P; now destruct nb).
    cbv zeta. destruct (vserialize_int (Z.of_nat (length d))) as [c|e]; [|discriminate].
    specialize (IH (size + length pad + length c + length d) false).
    destruct (serialize_loop_n (size + length pad + length c + length d) false p) as [m [rest|e]]; [|discriminate]. intros [= <- <-].
    specialize (IH m rest eq_refl). pose proof (append_upper (size + length pad) c). pose proof (append_upper (size + length pad + length c) d).
    rewrite !app_length, !Nat.add_assoc. lia.
  - assert (P : exists n0 pad, (if nb then let* a := vserialize_int 0 in Ok (append_n size a, a) else Ok (0, [])) = Ok (n0, pad) /\
        2 * n0 + size * (size + 1) <= (size + length pad) * (size + length pad + 1)).
    { destruct nb; [|exists 0, []; split; [reflexivity|cbn [length]; lia]]. destruct venc0 as [-> _]. cbn [bind]. eexists _, _. split; [reflexivity|].
      apply append_upper. }
    destruct P as [n0 [pad [P B0]]].
    replace (match nb with true => _ | false => Ok (0, []) end) with (Ok (n0, pad)) by (rewrite <- P; now destruct nb).
    cbv zeta. destruct (vserialize_int (Z.of_nat i)) as [c|e]; [|discriminate]. destruct (vserialize_bound j) as [d|e]; [|discriminate].
    specialize (IH (size + length pad + length c + length d) true).
    destruct (serialize_loop_n (size + length pad + length c + length d) true p) as [m [rest|e]]; [|discriminate]. intros [= <- <-].
    specialize (IH m rest eq_refl). pose proof (append_upper (size + length pad) c). pose proof (append_upper (size + length pad + length c) d).
    rewrite !app_length, !Nat.add_assoc. lia.
Qed.

Lemma two_appends size c d : 1 <= length c -> 1 <= length d -> 
  2 * size + 3 <= append_n size c + append_n (size + length c) d + match size with O => 1 | _ => 0 end.
Proof.
  intros C D. destruct c as [|x c]; [cbn in C; lia|]. destruct d as [|y d]; [cbn in D; lia|].
  destruct size; cbn [append_n length Nat.add]; lia.
Qed.
Lemma ser_lower p : Forall full p -> forall size nb n d, serialize_loop_n size nb p = (n, Ok d) ->
  (2 * size + 2 * length p + 1) * length p <= n + match size with O => 1 | _ => 0 end.
Proof.
  induction 1 as [|x p Hx Hp IH]; intros size nb n r; [cbn [length]; lia|]. cbn [serialize_loop_n].
  assert (P : exists n0 pad, match x, nb with
      | PSlice _, true => let* a := vserialize_int 0 in Ok (append_n size a, a)
      | PData _, false =>
        let* a := vserialize_int 0 in
        let* b := vserialize_int 0 in
        Ok (append_n size a + append_n (size + length a) b, a ++ b)
      | _, _ => Ok (0, [])
      end = Ok (n0, pad)).
  { destruct venc0 as [-> _]. destruct x, nb; eauto; eexists _, _; reflexivity. }
  destruct P as [n0 [pad P]]. rewrite P. cbv zeta. clear P.
  assert (Main : forall c d m, 1 <= length c -> 1 <= length d ->
    (2 * (size + length pad + length c + length d) + 2 * length p + 1) * length p <= m ->
    (2 * size + 2 * length (x :: p) + 1) * length (x :: p) <=
    n0 + append_n (size + length pad) c + append_n (size + length pad + length c) d + m + match size with O => 1 | _ => 0 end).
  { intros c d m Hc Hd Hm. pose proof (two_appends (size + length pad) c d Hc Hd) as T. cbn [length].
    assert (match size + length pad with O => 1 | _ => 0 end <= match size with O => 1 | _ => 0 end) by (destruct size; cbn; [destruct (length pad); lia|lia]).
    nia. }
  destruct x as [d|[i j]].
  - destruct (vserialize_int (Z.of_nat (length d))) as [c|e] eqn:Ec; [|discriminate].
    specialize (IH (size + length pad + length c + length d) false).
    destruct (serialize_loop_n (size + length pad + length c + length d) false p) as [m [rest|e]]; [|discriminate]. intros [= <- <-].
    specialize (IH m rest eq_refl). pose proof (vser_length _ _ Ec) as Lc.
    assert (Ld : 1 <= length d) by (destruct d; [destruct Hx|cbn; lia]).
    apply Main; auto. destruct (size + length pad + length c + length d) eqn:Q; lia.
  - destruct (vserialize_int (Z.of_nat i)) as [c|e] eqn:Ec; [|discriminate]. destruct (vserialize_bound j) as [d|e] eqn:Ed; [|discriminate].
    specialize (IH (size + length pad + length c + length d) true).
    destruct (serialize_loop_n (size + length pad + length c + length d) true p) as [m [rest|e]]; [|discriminate]. intros [= <- <-].
    specialize (IH m rest eq_refl). pose proof (vser_length _ _ Ec) as Lc.
    assert (Ld : 1 <= length d) by (destruct j; [apply (vser_length _ _ Ed)|discriminate]).
    apply Main; auto. destruct (size + length pad + length c + length d) eqn:Q; lia.
Qed.
Theorem writing_cost p n d : serialize_changeset_n p = (n, Ok d) ->
  2 * n <= length d * (length d + 1) /\ (Forall full p -> length p * (2 * length p + 1) <= n + 1).
Proof.
  intros H. split.
  - pose proof (ser_upper p 0 true n d H). cbn in H0. lia.
  - intros F. pose proof (ser_lower p F 0 true n d H). cbn [Nat.mul Nat.add] in H0. lia.
Qed.

(** * Patches with many pieces *)
Fixpoint pieces (k : nat) : list (pitem Z) :=
  match k with O => [] | S k => PData [97%Z] :: PSlice (0, Some 1) :: pieces k end.
Lemma pieces_ser k : exists d, serialize_loop true (pieces k) = Ok d /\ length d = 4 * k.
Proof.
  induction k as [|k [d [IH L]]]; [now exists []|]. exists ([1; 97; 0; 1]%Z ++ d). split; [|rewrite app_length, L; cbn [length]; lia].
  cbn [pieces serialize_loop]. change (vserialize_int (Z.of_nat (length [97%Z]))) with (@Ok (list Z) [1%Z]).
  change (vserialize_int (Z.of_nat 0)) with (@Ok (list Z) [0%Z]). change (vserialize_bound (Some 1)) with (@Ok (list Z) [1%Z]).
  cbn [bind]. rewrite IH. reflexivity.
Qed.
Lemma pieces_fit k : patch_fits (pieces k) /\ trimmed (pieces k) = pieces k /\ length (pieces k) = 2 * k /\ Forall full (pieces k).
Proof.
  induction k as [|k (F & T & L & U)]; [repeat split; constructor|]. cbn [pieces].
  split; [|split; [|split]].
  - constructor; [cbn; unfold u64; lia|]. constructor; [cbn; unfold u64; lia|exact F].
  - unfold trimmed in *. cbn [filter idle negb]. cbn. now rewrite T.
  - cbn [length]. rewrite L. lia.
  - constructor; [exact I|]. constructor; [exact I|exact U].
Qed.
Theorem linear_refuted c : exists p d w r, serialize_changeset_n p = (w, Ok d) /\ deserialize_changeset_n d = (r, (p, None)) /\
  c * length d < w /\ c * length d < r.
Proof.
  pose proof (pieces_fit (c + 2)) as (F & T & L & U). destruct (pieces_ser (c + 2)) as [d [Hs Ld]].
  destruct (patch_round_trip _ F) as [d' [Hs' Hd]]. assert (d' = d) by (unfold serialize_changeset in Hs'; congruence). subst d'.
  rewrite T in Hd. pose proof (serialize_erase (pieces (c + 2))) as SE. rewrite Hs' in SE.
  destruct (serialize_changeset_n (pieces (c + 2))) as [w x] eqn:W. cbn [snd] in SE. subst x.
  pose proof (deserialize_erase d) as DE. rewrite Hd in DE. destruct (deserialize_changeset_n d) as [r y] eqn:R. cbn [snd] in DE. subst y.
  exists (pieces (c + 2)), d, w, r. split; [exact W|]. split; [exact R|].
  pose proof (proj2 (writing_cost _ _ _ W) U) as WL.
  assert (Rl : length (pieces (c + 2)) * (2 * length (pieces (c + 2)) + 1) <= r).
  { assert (B : Forall is_byte d).
    { assert (G : forall k e, serialize_loop true (pieces k) = Ok e -> Forall is_byte e).
      { induction k as [|k IH]; intros e; [intros [= <-]; constructor|]. cbn [pieces serialize_loop].
        change (vserialize_int (Z.of_nat (length [97%Z]))) with (@Ok (list Z) [1%Z]).
        change (vserialize_int (Z.of_nat 0)) with (@Ok (list Z) [0%Z]). change (vserialize_bound (Some 1)) with (@Ok (list Z) [1%Z]).
        cbn [bind]. destruct (serialize_loop true (pieces k)) as [e'|]; [|discriminate]. cbn [bind app]. intros [= <-].
        repeat (constructor; [unfold is_byte; lia|]). now apply IH. }
      exact (G _ _ Hs). }
    pose proof (reading_cost d B) as RC. rewrite R in RC. tauto. }
  rewrite L in *. rewrite Ld. nia.
Qed.
