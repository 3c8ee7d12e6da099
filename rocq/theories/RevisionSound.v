(** [reevaluate] of src/deprecated/revision_tree.py restores sizes and heights. *)
From Coq Require Import Lia Permutation.
From Verif Require Import Base TreeShape TreeRake Revision SpecRevision RevisionProofs RevisionInsert RevisionStep RevisionShape RevisionTree RevisionState.
Local Open Scope nat_scope.

Section R.
Context {K : Type} {E : Teq K} {O : TeqOk K}.
Notation rake := (rake (K := K)).
Notation rnodes := (dict K (rnode K)).
Implicit Type s : rnodes.
Implicit Type l : rake.

Section Good.
Variable rt : rtree K.
Variable l : rake.
Variable ts : list K.
Variable G : good rt l ts.
Notation s := (r_index rt).

Lemma good_in v : In v (dkeys s) <-> In v (rtags l).
Proof. rewrite (g_keys _ _ _ G). split; apply Permutation_in; [symmetry|]; apply (g_perm _ _ _ G). Qed.
(** where a node is *)
Lemma good_place v n : dget s v = Some n ->
  (exists l1 t l2, l = l1 ++ (v, t) :: l2 /\ r_left n = first_of l2 /\ r_right n = hd_error t /\ r_parent n = endp None l1 /\
    r_size n = wt ((v, t) :: l2) /\ r_height n = wt ((v, t) :: l2) /\ tooth s v t /\ spine s (Some v) l2) \/
  (exists l1 q t1 t2 l2, l = l1 ++ (q, t1 ++ v :: t2) :: l2 /\ (r_left n = hd_error t2 /\ r_right n = None \/ r_left n = None /\ r_right n = hd_error t2) /\
    r_parent n = Some (last t1 q) /\ r_size n = S (length t2) /\ r_height n = S (length t2) /\ tooth s v t2).
Proof.
  intros Gv. assert (I : In v (rtags l)) by (apply good_in, dget_keys; congruence).
  destruct (place l v I) as [l1 [q [t [l2 [Q C]]]]]. pose proof (g_spine _ _ _ G) as SP. rewrite Q in SP.
  destruct (spine_split _ _ _ _ SP) as [_ SP2]. cbn [spine] in SP2. destruct SP2 as [[i Gq] [T SP2]]. destruct C as [->|[t1 [t2 ->]]].
  - left. rewrite Gq in Gv. injection Gv as <-. exists l1, t, l2. cbn [r_left r_right r_parent r_size r_height]. auto 12.
  - right. destruct (tooth_split _ _ _ _ _ T) as [i2 [lf [r [p [Gv2 [D [-> T2]]]]]]]. rewrite Gv2 in Gv. injection Gv as <-.
    exists l1, q, t1, t2, l2. cbn [r_left r_right r_parent r_size r_height]. auto 12.
Qed.
Lemma tooth_child v t c : tooth s v t -> hd_error t = Some c -> exists n, dget s c = Some n /\ r_parent n = Some v /\ r_size n = length t.
Proof. destruct t as [|d t]; [discriminate|]. intros H Q. injection Q as ->. destruct H as [[i [lf [r [Gc _]]]] _]. eexists; split; [exact Gc|auto]. Qed.
Lemma spine_child v l2 c : spine s (Some v) l2 -> first_of l2 = Some c -> exists n, dget s c = Some n /\ r_parent n = Some v /\ r_size n = wt l2.
Proof. destruct l2 as [|[q t] l2]; [discriminate|]. intros H Q. injection Q as ->. destruct H as [[i Gc] _]. eexists; split; [exact Gc|auto]. Qed.

Lemma good_sound : sound s.
Proof.
  split.
  - rewrite (g_keys _ _ _ G). apply (g_nodup _ _ _ G).
  - intros c v [m [Gv Hc]]. destruct (good_place v m Gv) as [[l1 [t [l2 [Q [L [R [P [Z [_ [T S2]]]]]]]]]]|[l1 [q [t1 [t2 [l2 [Q [LR [P [Z [_ T]]]]]]]]]]].
    + rewrite L, R in Hc. destruct Hc as [Hc|Hc].
      * destruct (spine_child v l2 c S2 Hc) as [n [Gc [Pn Zn]]]. exists n, m. rewrite wt_cons in Z. repeat split; auto. lia.
      * destruct (tooth_child v t c T Hc) as [n [Gc [Pn Zn]]]. exists n, m. rewrite wt_cons in Z. repeat split; auto. lia.
    + assert (Hd : hd_error t2 = Some c) by (destruct LR as [[A B]|[A B]]; rewrite A, B in Hc; destruct Hc as [Hc|Hc]; congruence).
      destruct (tooth_child v t2 c T Hd) as [n [Gc [Pn Zn]]]. exists n, m. repeat split; auto. lia.
  - intros v n p Gv Pn. pose proof (g_spine _ _ _ G) as SP.
    destruct (good_place v n Gv) as [[l1 [t [l2 [Q [_ [_ [P _]]]]]]]|[l1 [q [t1 [t2 [l2 [Q [_ [P _]]]]]]]]].
    + rewrite Pn in P. destruct l1 as [|e l1 _] using rev_ind; [discriminate|]. destruct e as [q0 t0]. rewrite endp_snoc in P. injection P as <-.
      rewrite <- app_assoc in Q. cbn [app] in Q. rewrite Q in SP. destruct (spine_split _ _ _ _ SP) as [_ SP2]. cbn [spine] in SP2.
      destruct SP2 as [[i Gp] _]. eexists; split; [exact Gp|]. left; reflexivity.
    + rewrite Pn in P. rewrite Q in SP. destruct (spine_split _ _ _ _ SP) as [_ SP2]. cbn [spine] in SP2. destruct SP2 as [[i Gq] [T _]].
      destruct t1 as [|e t1 _] using rev_ind.
      * injection P as ->. eexists; split; [exact Gq|]. right; reflexivity.
      * rewrite last_last in P. injection P as ->. rewrite <- app_assoc in T. cbn [app] in T.
        destruct (tooth_split _ _ _ _ _ T) as [i2 [lf [r [p2 [Gp [D _]]]]]]. eexists; split; [exact Gp|]. cbn [r_left r_right hd_error] in *.
        destruct D as [[-> _]|[_ ->]]; auto.
  - intros v n Gv. destruct (good_place v n Gv) as [[l1 [t [l2 [Q [L [R [P [Z [H [T S2]]]]]]]]]]|[l1 [q [t1 [t2 [l2 [Q [LR [P [Z [H T]]]]]]]]]]].
    + rewrite L, R, Z, H. exists (wt l2, wt l2), (length t, length t). split; [exact (states_spine _ _ _ S2)|split; [exact (states_tooth _ _ _ T)|]].
      rewrite wt_cons. cbn [fst snd]. lia.
    + pose proof (states_tooth _ _ _ T) as St. destruct LR as [[-> ->]|[-> ->]]; rewrite Z, H.
      * exists (length t2, length t2), (0, 0). split; [exact St|split; [reflexivity|cbn [fst snd]; lia]].
      * exists (0, 0), (length t2, length t2). split; [reflexivity|split; [exact St|cbn [fst snd]; lia]].
  - intros v Hv. rewrite (g_keys _ _ _ G) in Hv. exists (rev (rpath l v)). apply (good_up rt l ts G v); [exact Hv|]. rewrite (good_length rt l ts G). lia.
Qed.
End Good.

Lemma dget_map (f : K -> rnode K -> rnode K) s v : dget (map (fun x => (fst x, f (fst x) (snd x))) s) v = option_map (f v) (dget s v).
Proof.
  induction s as [|[k n] s IH]; cbn [map dget fst snd]; [reflexivity|]. destruct (teq_spec k v) as [->|_]; [reflexivity|exact IH].
Qed.
Lemma alike_map s (f : K -> nat * nat) : alike s (map (fun x => (fst x, set_states (snd x) (fst (f (fst x))) (snd (f (fst x))))) s).
Proof.
  split.
  - unfold dkeys. rewrite map_map. apply map_ext. reflexivity.
  - intros v n m H1 H2. rewrite (dget_map (fun k x => set_states x (fst (f k)) (snd (f k))) s v), H2 in H1. injection H1 as <-. reflexivity.
Qed.
Theorem restored ts f : NoDup ts -> exists t, r_insert_all ts r_empty = Ok t /\
  r_reevaluate (with_states f t) = Ok t.
Proof.
  intros N. destruct ts as [|b ts]; [exists r_empty; split; reflexivity|].
  destruct (insertions (b :: ts) N ltac:(discriminate)) as [rt [l [I [G _]]]]. exists rt. split; [exact I|]. unfold r_reevaluate, with_states. cbn [r_index r_root].
  rewrite (recomputed (r_index rt) (good_sound rt l _ G) _ (alike_map (r_index rt) f)). cbn [bind]. destruct rt; reflexivity.
Qed.
Theorem invalidated ts : NoDup ts -> exists t, r_insert_all ts r_empty = Ok t /\ r_reevaluate (r_invalidate t) = Ok t.
Proof. intros N. exact (restored ts (fun _ => (0, 0)) N). Qed.

(** ** The recorded height *)
Lemma chain_child s t : forall q u v, tooth s q t -> In (u, v) (chain q t) -> (u = q /\ hd_error t = Some v) \/ child s v u.
Proof.
  induction t as [|d t IH]; intros q u v T I; [destruct I|]. cbn [tooth] in T. destruct T as [[i [lf [rt [G D]]]] T]. apply chain_cons in I as [[-> ->]|I]; [now left|].
  right. destruct (IH d u v T I) as [[-> H]|H]; [|exact H]. eexists; split; [exact G|]. cbn [r_left r_right]. destruct D as [[-> _]|[_ ->]]; auto.
Qed.
Lemma redges_child s l : forall par u v, spine s par l -> In (u, v) (redges l) -> child s v u.
Proof.
  induction l as [|[q t] l IH]; intros par u v SP I; [destruct I|]. cbn [spine] in SP. destruct SP as [[i G] [T SP]].
  apply redges_cons in I as [I|[[-> F]|I]]; [|eexists; split; [exact G|]; left; exact F|exact (IH (Some q) u v SP I)].
  destruct (chain_child s t q u v T I) as [[-> H]|H]; [|exact H]. eexists; split; [exact G|]. right; exact H.
Qed.
Lemma route_size s (es : list (K * K)) : sound s -> (forall u v, In (u, v) es -> child s v u) -> forall v p w n, route es v p w -> dget s v = Some n -> length p <= r_size n.
Proof.
  intros SO H v p w n R. revert n. induction R as [v|v y p w I R IH]; intros n G.
  - destruct (so_states _ SO v n G) as [a [b [_ [_ [_ Z]]]]]. cbn. lia.
  - destruct (so_child _ SO y v (H v y I)) as [ny [m [G1 [G2 [_ L]]]]]. rewrite G in G2. injection G2 as <-. specialize (IH ny G1). cbn [length]. lia.
Qed.
Theorem heights ts : NoDup ts -> exists t es, r_insert_all ts r_empty = Ok t /\ r_edges t = Ok es /\
  forall v, In v ts -> exists z h, r_get_state t v = Some (z, h) /\ forall p w, route es v p w -> length p <= h.
Proof.
  intros N. destruct ts as [|b ts].
  - exists r_empty, []. split; [reflexivity|split; [reflexivity|intros v []]].
  - destruct (insertions (b :: ts) N ltac:(discriminate)) as [rt [l [I [G _]]]]. destruct (good_edges rt l _ G) as [es [Q P]]. exists rt, es.
    split; [exact I|split; [exact Q|]]. intros v Hv. destruct (good_state rt l _ v G Hv) as [z [St _]]. exists z, z. split; [exact St|]. intros p w R.
    unfold r_get_state in St. destruct (dget (r_index rt) v) as [n|] eqn:Gv; [|discriminate]. injection St as Z _. rewrite <- Z.
    apply (route_size (r_index rt) es (good_sound rt l _ G)) with (v := v) (w := w); [|exact R|exact Gv].
    intros u c Hc. apply (redges_child (r_index rt) l None u c (g_spine _ _ _ G)). exact (Permutation_in _ P Hc).
Qed.
End R.
