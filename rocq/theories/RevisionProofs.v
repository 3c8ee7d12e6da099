(** The tree of src/deprecated/revision_tree.py has the shape of TreeShape.v. *)
From Coq Require Import Lia Permutation.
From Verif Require Import Base TreeShape TreeRake Revision.
Local Open Scope nat_scope.

Section R.
Context {K : Type} {E : Teq K} {O : TeqOk K}.
Notation rake := (rake (K := K)).
Notation rnodes := (dict K (rnode K)).
Implicit Type s : rnodes.
Implicit Type l : rake.

Definition wt l : nat := length (rtags l).
Fixpoint tooth s (par : K) (t : list K) : Prop :=
  match t with
  | [] => True
  | d :: t' =>
    (exists i lf rt, dget s d = Some (mkR i lf rt (Some par) (S (length t')) (S (length t'))) /\
      (lf = hd_error t' /\ rt = None \/ lf = None /\ rt = hd_error t')) /\ tooth s d t'
  end.
Fixpoint spine s (par : option K) l : Prop :=
  match l with
  | [] => True
  | (q, t) :: l' =>
    (exists i, dget s q = Some (mkR i (first_of l') (hd_error t) par (wt l) (wt l))) /\ tooth s q t /\ spine s (Some q) l'
  end.
(** the same above [nxt], sizes and heights apart *)
Fixpoint prefix s (par : option K) l (nxt : option K) : Prop :=
  match l with
  | [] => True
  | (q, t) :: l' =>
    (exists i w z, dget s q = Some (mkR i (match first_of l' with Some c => Some c | None => nxt end) (hd_error t) par w z)) /\
    tooth s q t /\ prefix s (Some q) l' nxt
  end.
Fixpoint endp (par : option K) l : option K := match l with [] => par | (q, _) :: l' => endp (Some q) l' end.

Lemma wt_cons q t l : wt ((q, t) :: l) = S (length t + wt l).
Proof. unfold wt. change (rtags ((q, t) :: l)) with (q :: t ++ rtags l). cbn; now rewrite app_length. Qed.
Lemma wt_app (a b : rake) : wt (a ++ b) = wt a + wt b.
Proof. unfold wt. now rewrite rtags_app, app_length. Qed.
Lemma tall_wt l : tall_of (lens l) <= wt l.
Proof. induction l as [|[q t] l IH]; [cbn; lia|]. rewrite wt_cons. cbn [lens map tall_of snd]. unfold lens in IH. lia. Qed.
Lemma endp_snoc par l q t : endp par (l ++ [(q, t)]) = Some q.
Proof. revert par; induction l as [|[a b] l IH]; intros par; cbn; auto. Qed.
Lemma rtags_cons q t l : rtags ((q, t) :: l) = q :: t ++ rtags l.
Proof. reflexivity. Qed.

Lemma tooth_frame s s' t : forall par, (forall d, In d t -> dget s' d = dget s d) -> tooth s par t -> tooth s' par t.
Proof.
  induction t as [|d t IH]; intros par H; cbn [tooth]; [auto|]. intros [[i [lf [rt [G D]]]] T]. split.
  - exists i, lf, rt. rewrite H by now left. auto.
  - apply IH; [|exact T]. intros; apply H; now right.
Qed.
Lemma spine_frame s s' l : forall par, (forall d, In d (rtags l) -> dget s' d = dget s d) -> spine s par l -> spine s' par l.
Proof.
  induction l as [|[q t] l IH]; intros par H; cbn [spine]; [auto|]. rewrite rtags_cons in H. intros [[i G] [T S]]. split; [|split].
  - exists i. rewrite H by now left. exact G.
  - apply (tooth_frame s); [|exact T]. intros; apply H; right; rewrite in_app_iff; now left.
  - apply IH; [|exact S]. intros; apply H; right; rewrite in_app_iff; now right.
Qed.
Lemma prefix_frame s s' l nxt : forall par, (forall d, In d (rtags l) -> dget s' d = dget s d) -> prefix s par l nxt -> prefix s' par l nxt.
Proof.
  induction l as [|[q t] l IH]; intros par H; cbn [prefix]; [auto|]. rewrite rtags_cons in H. intros [[i [w [z G]]] [T S]]. split; [|split].
  - exists i, w, z. rewrite H by now left. exact G.
  - apply (tooth_frame s); [|exact T]. intros; apply H; right; rewrite in_app_iff; now left.
  - apply IH; [|exact S]. intros; apply H; right; rewrite in_app_iff; now right.
Qed.
Lemma first_of_app (a b : rake) : first_of (a ++ b) = match first_of a with Some c => Some c | None => first_of b end.
Proof. destruct a as [|[q t] a]; reflexivity. Qed.
Lemma spine_split s (a b : rake) : forall par, spine s par (a ++ b) -> prefix s par a (first_of b) /\ spine s (endp par a) b.
Proof.
  induction a as [|[q t] a IH]; intros par; cbn [app spine prefix endp]; [auto|]. intros [[i G] [T S]].
  destruct (IH (Some q) S) as [P S2]. split; [|exact S2]. split; [|split; [exact T|exact P]].
  exists i. rewrite first_of_app in G. eauto.
Qed.
Lemma prefix_snoc s (a : rake) q t nxt : forall par, prefix s par (a ++ [(q, t)]) nxt ->
  prefix s par a (Some q) /\ (exists i w z, dget s q = Some (mkR i nxt (hd_error t) (endp par a) w z)) /\ tooth s q t.
Proof.
  induction a as [|[q0 t0] a IH]; intros par; cbn [app prefix endp]; [intros [G [T _]]; auto|].
  intros [[i [w [z G]]] [T S]]. destruct (IH (Some q0) S) as [P R]. split; [|exact R]. split; [|split; [exact T|exact P]].
  exists i, w, z. rewrite first_of_app in G. destruct a as [|[q1 t1] a]; exact G.
Qed.
Lemma prefix_next s par l nxt : l <> [] -> prefix s par l nxt -> forall q t a, l = a ++ [(q, t)] -> exists i w z, dget s q = Some (mkR i nxt (hd_error t) (endp par a) w z).
Proof. intros _ P q t a ->. now apply prefix_snoc in P. Qed.

Lemma states_tooth s q t : tooth s q t -> r_states s (hd_error t) = Ok (length t, length t).
Proof. destruct t as [|d t]; cbn [tooth hd_error r_states length]; [auto|]. intros [[i [lf [rt [G _]]]] _]. unfold node_at; rewrite G; reflexivity. Qed.
Lemma states_spine s par l : spine s par l -> r_states s (first_of l) = Ok (wt l, wt l).
Proof. destruct l as [|[q t] l]; cbn [spine first_of r_states]; [auto|]. intros [[i G] _]. unfold node_at; rewrite G; reflexivity. Qed.

Lemma dkeys_dset_in s t n m : dget s t = Some n -> dkeys (dset s t m) = dkeys s.
Proof.
  unfold dkeys. induction s as [|[k v] s IH]; cbn [dget dset map fst]; [discriminate|].
  destruct (teq_spec k t) as [->|H]; intros G; cbn [map fst]; [reflexivity|]. f_equal; auto.
Qed.
Lemma dkeys_length s s' : dkeys s = dkeys s' -> length s = length s'.
Proof. intros H. rewrite <- (map_length fst s), <- (map_length fst s'). unfold dkeys in H. now rewrite H. Qed.

(** [update_states] from the lower end of a part of the spine *)
Lemma update_spine l1 : forall s l2 fuel, NoDup (rtags (l1 ++ l2)) -> prefix s None l1 (first_of l2) -> spine s (endp None l1) l2 ->
  length l1 <= fuel ->
  exists s', r_update fuel (endp None l1) s = Ok s' /\ spine s' None (l1 ++ l2) /\ dkeys s' = dkeys s /\
    (forall d, ~ In d (map fst l1) -> dget s' d = dget s d).
Proof.
  induction l1 as [|[q t] l1 IH] using rev_ind; intros s l2 fuel N P S L.
  - exists s. cbn. split; [destruct fuel; reflexivity|]. auto.
  - rewrite endp_snoc in *. rewrite app_length in L; cbn in L. destruct fuel as [|fuel]; [lia|].
    destruct (prefix_snoc _ _ _ _ _ _ P) as [P1 [[i [w [z G]]] T]].
    rewrite <- app_assoc in N |- *. cbn [app] in N |- *.
    set (n := mkR i (first_of l2) (hd_error t) (endp None l1) (wt ((q, t) :: l2)) (wt ((q, t) :: l2))).
    assert (N2 : NoDup (rtags ((q, t) :: l2))) by (rewrite rtags_app in N; apply nodup_app in N; tauto).
    rewrite rtags_cons in N2. apply NoDup_cons_iff in N2 as [Nq Nt].
    assert (Dis : ~ In q (rtags l1)).
    { rewrite rtags_app in N. apply nodup_app in N as [_ [_ D]]. intros C. apply (D q C). now left. }
    assert (Fr : forall d, d <> q -> dget (dset s q n) d = dget s d) by (intros; apply dget_dset_other; congruence).
    destruct (IH (dset s q n) ((q, t) :: l2) fuel) as [s' [U [S' [Kk F]]]].
    + exact N.
    + apply (prefix_frame s); [|exact P1]. intros d Hd. apply Fr. intros ->; contradiction.
    + cbn [spine]. split; [exists i; now rewrite dget_dset_same|]. split.
      * apply (tooth_frame s); [|exact T]. intros d Hd. apply Fr. intros ->. apply Nq; rewrite in_app_iff; now left.
      * apply (spine_frame s); [|exact S]. intros d Hd. apply Fr. intros ->. apply Nq; rewrite in_app_iff; now right.
    + lia.
    + exists s'. split; [|split; [exact S'|split]].
      * cbn [r_update]. unfold node_at; rewrite G; cbn [bind r_left r_right r_parent].
        rewrite (states_spine _ _ _ S), (states_tooth _ _ _ T). cbn [bind fst snd].
        replace (set_states _ _ _) with n; [exact U|]. unfold n, set_states; cbn [r_id r_left r_right r_parent]. rewrite wt_cons. f_equal; lia.
      * rewrite Kk. exact (dkeys_dset_in _ _ _ _ G).
      * intros d Hd. rewrite map_app, in_app_iff in Hd; cbn in Hd. rewrite F by tauto. apply Fr. intros ->; tauto.
Qed.

(** ** The search *)
Lemma find_spine s l2 q2 t2 R : forall l1 d dir par fuel, spine s par (l1 ++ (q2, t2) :: l2) ->
  (forall la q t lb, l1 = la ++ (q, t) :: lb ->
    d + length la < wt ((q, t) :: lb ++ (q2, t2) :: l2) /\ length t <= wt (lb ++ (q2, t2) :: l2)) ->
  (forall dir', (l1 <> [] -> dir' = LEFT) -> (l1 = [] -> dir' = dir) -> r_find fuel (d + length l1) dir' q2 s = R) ->
  forall r, first_of (l1 ++ (q2, t2) :: l2) = Some r -> r_find (length l1 + fuel) d dir r s = R.
Proof.
  induction l1 as [|[q t] l1 IH]; intros d dir par fuel SP HC HR r Fr.
  - injection Fr as <-. cbn [length Nat.add] in *. rewrite Nat.add_0_r in HR. apply HR; auto. intros C; contradiction.
  - injection Fr as <-. cbn [app spine] in SP. destruct SP as [[i G] [T SP]].
    destruct (HC [] q t l1 eq_refl) as [A1 A2]. cbn [length Nat.add r_find]. unfold node_at; rewrite G; cbn [bind r_height r_left r_right].
    cbn [length] in A1; rewrite Nat.add_0_r in A1.
    destruct (Nat.ltb_spec d (wt ((q, t) :: l1 ++ (q2, t2) :: l2))) as [_|C]; [|cbn [app] in A1; lia].
    assert (Go : forall r', first_of (l1 ++ (q2, t2) :: l2) = Some r' -> r_find (length l1 + fuel) (S d) LEFT r' s = R).
    { apply (IH (S d) LEFT (Some q) fuel SP).
      - intros la q0 t0 lb Q. destruct (HC ((q, t) :: la) q0 t0 lb) as [B1 B2]; [now rewrite Q|].
        cbn [length] in B1; split; [lia|exact B2].
      - intros dir' D1 D2. replace (S d + length l1) with (d + length ((q, t) :: l1)) by (cbn; lia). apply HR; [|discriminate].
        intros _. destruct l1; [auto|apply D1; discriminate]. }
    destruct (first_of (l1 ++ (q2, t2) :: l2)) as [r'|] eqn:Fn.
    2: { destruct l1 as [|[? ?] ?]; discriminate. }
    pose proof (states_spine _ _ _ SP) as SS. rewrite Fn in SS. cbn [r_states] in SS. unfold node_at in SS.
    destruct (dget s r') as [n'|] eqn:Gr; [|discriminate]. cbn [bind] in SS. injection SS as Hn' _.
    destruct t as [|c t]; cbn [hd_error].
    + apply Go; reflexivity.
    + pose proof (states_tooth _ _ _ T) as ST. cbn [hd_error r_states] in ST. unfold node_at in ST.
      destruct (dget s c) as [nc|] eqn:Gc; [|discriminate]. cbn [bind] in ST |- *. injection ST as Hc _.
      rewrite Hn', Hc. cbn [length] in A2. change (length ((c :: t))) with (S (length t)).
      destruct (Nat.ltb_spec (wt (l1 ++ (q2, t2) :: l2)) (S (length t))); [lia|]. apply Go; reflexivity.
Qed.
End R.
