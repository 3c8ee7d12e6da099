(** The exact shape of the tree of src/deprecated/revision_tree.py. *)
From Coq Require Import Lia Permutation.
From Verif Require Import Base TreeShape TreeRake Revision RevisionProofs RevisionInsert RevisionStep.
Local Open Scope nat_scope.

Section R.
Context {K : Type} {E : Teq K} {O : TeqOk K}.
Notation rake := (rake (K := K)).
Implicit Type l : rake.

(** two versions hang below each other on the left *)
Definition phaseR (n : nat) (a : list nat) : Prop := n = 2 /\ a = [0; 0] \/ n <> 2 /\ phase n a.

Lemma find_left s l l1 q2 t2 l2 x : spine s None l -> l = l1 ++ (q2, t2) :: l2 -> l1 <> [] -> first_of l = Some x ->
  (forall la q t lb, l1 = la ++ (q, t) :: lb ->
    1 + length la < wt ((q, t) :: lb ++ (q2, t2) :: l2) /\ length t <= wt (lb ++ (q2, t2) :: l2)) ->
  wt ((q2, t2) :: l2) <= 1 + length l1 -> r_find (wt l) 1 NONE x s = Ok (q2, LEFT).
Proof.
  intros SP Q Ne Fx HC Hw.
  replace (wt l) with (length l1 + (wt l - length l1)).
  2: { rewrite Q, wt_app. pose proof (wt_length l1). lia. }
  apply (find_spine s l2 q2 t2 (Ok (q2, LEFT)) l1 1 NONE None).
  - rewrite <- Q; exact SP.
  - exact HC.
  - intros dir' D1 _. rewrite (D1 Ne). rewrite Q in SP. destruct (spine_split _ _ _ _ SP) as [_ [[i G] _]].
    destruct (wt l - length l1); cbn [r_find]; unfold node_at; rewrite G; cbn [bind r_height];
      destruct (Nat.ltb_spec (1 + length l1) (wt ((q2, t2) :: l2))); try reflexivity; lia.
  - rewrite <- Q; exact Fx.
Qed.

Lemma tall_conditions (l1 : rake) e : (forall la q t lb, l1 = la ++ (q, t) :: lb ->
    1 + length la < tall_of (lens ((q, t) :: lb ++ e)) /\ length t <= tall_of (lens (lb ++ e))) ->
  forall la q t lb, l1 = la ++ (q, t) :: lb -> 1 + length la < wt ((q, t) :: lb ++ e) /\ length t <= wt (lb ++ e).
Proof.
  intros H la q t lb Q. destruct (H la q t lb Q) as [A B].
  pose proof (tall_wt ((q, t) :: lb ++ e)). pose proof (tall_wt (lb ++ e)). lia.
Qed.

Lemma loose_end s par y t : spine s par [(y, t)] -> loose s y t.
Proof.
  cbn [spine]. intros [[i G] [T _]]. split; [|exact T]. exists i, None, (hd_error t), par. split; [|now right].
  rewrite G. unfold wt; cbn [rtags flat_map fst snd first_of length app]. rewrite app_nil_r. reflexivity.
Qed.
Lemma tooth_spine s l m : lens l = repeat 0 m -> forall q, spine s (Some q) l -> tooth s q (map fst l).
Proof.
  revert m; induction l as [|[q0 t] l IH]; intros [|m]; cbn [lens map repeat]; intros H q SP; [exact Logic.I|exact Logic.I|discriminate|].
  injection H as H1 H2. destruct t; [|discriminate]. cbn [spine] in SP. destruct SP as [[i G] [_ SP]].
  cbn [map fst tooth]. split; [|exact (IH m H2 q0 SP)]. exists i, (first_of l), None. split.
  - rewrite G. rewrite wt_cons. cbn [length Nat.add hd_error]. destruct (spine_rtags l m H2) as [R L]. unfold wt. rewrite R, !map_length. reflexivity.
  - left. split; [|reflexivity]. destruct l as [|[q1 t1] l]; reflexivity.
Qed.
Lemma loose_spine s par l m y : lens l = repeat 0 m -> spine s par ((y, []) :: l) -> loose s y (map fst l).
Proof.
  intros H SP. cbn [spine] in SP. destruct SP as [[i G] [_ SP]]. split; [|exact (tooth_spine s l m H y SP)].
  exists i, (first_of l), None, par. split.
  - rewrite G. rewrite wt_cons. cbn [length Nat.add hd_error]. destruct (spine_rtags l m H) as [R L]. unfold wt. rewrite R, !map_length. reflexivity.
  - left. split; [|reflexivity]. destruct l as [|[q1 t1] l]; reflexivity.
Qed.

Lemma phase_two n a : phase n a -> n = 2 -> a = [1].
Proof.
  intros [k [j [[H [-> ->]]|[H0 [H [-> ->]]]]]] Q.
  - assert (k = 1 \/ 2 <= k) as [-> | L] by nia; [assert (j = 0) as -> by lia; lia|nia].
  - assert (k = 1) as -> by nia. assert (j = 0) as -> by lia. reflexivity.
Qed.
Lemma phase_not_two n a k j : n = k * k + k + j -> 0 < k -> j <= k -> a = shapeB k j -> (k <> 1 \/ j <> 0) -> phaseR n a.
Proof.
  intros -> H0 H -> C. right. split; [|exists k, j; right; auto]. intros Q. assert (k = 1) as -> by nia. lia.
Qed.

Ltac hd_case := eexists _, _; split; [reflexivity|]; subst;
  match goal with
  | F : first_of (?l1 ++ _) = Some ?x |- first_of ?l1 = Some ?x => destruct l1 as [|[? ?] ?]; [contradiction|exact F]
  | F : first_of (?l1 ++ _) = Some ?x |- first_of (?l1 ++ _) = Some ?x => destruct l1 as [|[? ?] ?]; exact F
  | _ => reflexivity
  end.
Theorem insert_step rt l ts a : good rt l ts -> ts <> [] -> phaseR (length ts) (lens l) -> ~ In a ts ->
  exists rt' l' ins rem, r_insert a rt = Ok (rt', (ins, rem)) /\ good rt' l' (ts ++ [a]) /\ phaseR (S (length ts)) (lens l') /\
    (exists T l1, l' = (a, T) :: l1 /\ first_of l1 = first_of l) /\ new_edges l l' ins rem a.
Proof.
  intros G Nt Ph Ha.
  assert (Lw : length ts = wt l) by (unfold wt; symmetry; apply Permutation_length, (g_perm _ _ _ G)).
  destruct (first_of l) as [x|] eqn:Fx.
  2: { destruct l as [|[? ?] ?]; [|discriminate]. destruct ts; [contradiction|discriminate]. }
  set (s0 := dset (r_index rt) a (mkR (length (r_index rt)) None None None 1 1)).
  pose proof (spine0 rt l ts G a Ha) as S0. fold s0 in S0.
  destruct Ph as [[L2 Hl]|[L2 [k [j Ph]]]].
  - destruct l as [|[x0 t0] [|[y t1] [|? ?]]]; try discriminate. injection Hl as Q1 Q2.
    destruct t0; [|discriminate]. destruct t1; [|discriminate]. injection Fx as ->.
    destruct (insert_left rt _ ts G a Ha x eq_refl [(x, [])] [(y, [])] y [] eq_refl) as [rt' [ins [rem [I [G' N]]]]];
      try reflexivity; try discriminate.
    + intros s par SP. exact (loose_end s par y [] SP).
    + apply (find_left s0 _ [(x, [])] y [] [] x S0); try reflexivity; try discriminate; [|cbn; lia].
      intros la q t lb Q. destruct la as [|? [|? ?]]; try discriminate. injection Q as <- <- <-. cbn; lia.
    + exists rt', [(a, [y]); (x, [])], ins, rem. split; [exact I|split; [exact G'|split; [|split; [hd_case|exact N]]]].
      right. split; [lia|]. exists 1, 1. right. rewrite L2. repeat split; lia.
  - destruct Ph as [[Hj [Hl Hn]]|[H0 [Hj [Hl Hn]]]].
    + destruct (dec_A l k j Hj Hl) as [l0 [y [t [Q [Ht [Len0 [L0 HC]]]]]]].
      destruct (Nat.eq_dec k 1) as [->|K1].
      * (* one version *)
        assert (j = 0) as -> by lia. destruct l0; [|discriminate]. destruct t; [|discriminate]. cbn [app] in Q. subst l. injection Fx as ->.
        pose proof (g_spine _ _ _ G) as SP. cbn [spine] in SP. destruct SP as [[i Gx] _]. cbn [first_of hd_error] in Gx.
        change (wt [(x, [])]) with 1 in Gx.
        assert (Xa : x <> a).
        { intros ->. apply Ha. apply (Permutation_in a (g_perm _ _ _ G)). now left. }
        set (na := mkR (length (r_index rt)) (Some x) None None 2 2).
        set (s1 := dset s0 a (mkR (length (r_index rt)) (Some x) None None 1 1)).
        set (s2 := dset s1 x (mkR i None None (Some a) 1 1)). set (s3 := dset s2 a na).
        assert (Gx0 : dget s0 x = Some (mkR i None None None 1 1)) by (unfold s0; rewrite dget_dset_other by congruence; exact Gx).
        assert (Ga0 : dget s0 a = Some (mkR (length (r_index rt)) None None None 1 1)) by apply dget_dset_same.
        assert (Ga1 : dget s1 a = Some (mkR (length (r_index rt)) (Some x) None None 1 1)) by apply dget_dset_same.
        assert (Gx1 : dget s1 x = Some (mkR i None None None 1 1)) by (unfold s1; rewrite dget_dset_other by congruence; exact Gx0).
        assert (Ga2 : dget s2 a = Some (mkR (length (r_index rt)) (Some x) None None 1 1)) by (unfold s2; rewrite dget_dset_other by congruence; exact Ga1).
        exists (mkT (Some a) s3), [(a, []); (x, [])], [(a, x)], []. split; [|split; [|split; [|split; [hd_case|]]]].
        -- unfold r_insert. fold s0. rewrite (g_root _ _ _ G). cbn [first_of]. unfold node_at at 1. rewrite Gx0. cbn [bind r_height r_find].
           unfold node_at at 1. rewrite Gx0. cbn [bind r_height]. change (1 <? 1) with false. cbn [bind fst snd]. rewrite teq_refl.
           unfold r_set. unfold node_at at 1. rewrite Ga0. cbn [bind]. unfold put_left; cbn [r_id r_right r_parent r_height r_size]. fold s1.
           unfold node_at at 1. rewrite Gx1. cbn [bind]. unfold set_rparent; cbn [r_id r_left r_right r_height r_size]. fold s2.
           cbn [r_update]. unfold node_at at 1. rewrite Ga2. cbn [bind r_left r_right r_parent r_states]. unfold node_at. unfold s2 at 1. rewrite dget_dset_same.
           cbn [bind fst snd r_height r_size]. unfold set_states; cbn [r_id r_left r_right r_parent]. destruct (length s2); reflexivity.
        -- split; cbn [r_root r_index].
           ++ reflexivity.
           ++ cbn [spine]. split; [eexists; unfold s3; rewrite dget_dset_same; reflexivity|]. split; [exact Logic.I|]. split; [|split; exact Logic.I].
              exists i. unfold s3. rewrite dget_dset_other by congruence. unfold s2. rewrite dget_dset_same. reflexivity.
           ++ apply (Permutation_NoDup (l := a :: ts)); [apply Permutation_cons_append|]. constructor; [exact Ha|apply (g_nodup _ _ _ G)].
           ++ rewrite <- Permutation_cons_append. change (rtags [(a, []); (x, [])]) with (a :: rtags [(x, @nil K)]). apply perm_skip, (g_perm _ _ _ G).
           ++ unfold s3. rewrite (dkeys_dset_in s2 a _ na Ga2). unfold s2. rewrite (dkeys_dset_in s1 x _ _ Gx1). unfold s1. rewrite (dkeys_dset_in s0 a _ _ Ga0).
              exact (keys0 rt _ ts G a Ha).
        -- left. rewrite Hn. split; [lia|reflexivity].
        -- split; [|split; [|split; [|cbn; lia]]].
           ++ intros e. cbn. split; [intros [H|[]]; auto|intros [[[] _]|[H|[]]]; auto].
           ++ intros e [].
           ++ intros e [<-|[]]; reflexivity.
      * assert (Ne : l0 <> []) by (intros ->; cbn in Len0; lia).
        destruct (insert_left rt l ts G a Ha x Fx l0 [(y, t)] y t Q Ne eq_refl) as [rt' [ins [rem [I [G' N]]]]].
        -- change (rtags [(y, t)]) with (y :: t ++ []). now rewrite app_nil_r.
        -- intros s par SP. exact (loose_end s par y t SP).
        -- intros e. cbn [redges first_of]. rewrite app_nil_r. reflexivity.
        -- apply (find_left s0 l l0 y t [] x S0 Q Ne Fx); [apply tall_conditions; exact HC|]. rewrite wt_cons. cbn [wt rtags flat_map length]. unfold wt; cbn. lia.
        -- exists rt', ((a, y :: t) :: l0), ins, rem. split; [exact I|split; [exact G'|split; [|split; [hd_case|exact N]]]].
           change (lens ((a, y :: t) :: l0)) with (S (length t) :: lens l0). rewrite Ht, L0.
           destruct (Nat.eq_dec (S j) k) as [Ek|Ek].
           ++ apply (phase_not_two _ _ k 0); try lia. unfold shapeB.
              replace (k - 1 - j) with 0 by lia. cbn [repeat]. rewrite !app_nil_r. replace k with (S j) by lia. cbn [repeat]. f_equal; lia.
           ++ right. split; [nia|]. exists k, (S j); left. split; [lia|split; [|lia]]. unfold shapeA. cbn [repeat app]. f_equal; [lia|]. f_equal. f_equal; lia.
    + destruct (Nat.eq_dec j k) as [->|Ek].
      * destruct (dec_B_end l k H0 Hl) as [l1 [y [l2 [Q [Len1 [L1 [Lz HC]]]]]]].
        assert (Ne : l1 <> []) by (intros ->; cbn in Len1; lia).
        destruct k as [|k]; [lia|]. pose proof Lz as Lz0. cbn [lens map snd length repeat] in Lz. injection Lz as Lz.
        destruct (spine_rtags l2 k Lz) as [RT LL].
        destruct (insert_left rt l ts G a Ha x Fx l1 ((y, []) :: l2) y (map fst l2) Q Ne eq_refl) as [rt' [ins [rem [I [G' N]]]]].
        -- rewrite rtags_cons. cbn [app]. rewrite RT. reflexivity.
        -- intros s par SP. exact (loose_spine s par l2 k y Lz SP).
        -- intros [u v]. exact (spine_redges l2 k y Lz u v).
        -- apply (find_left s0 l l1 y [] l2 x S0 Q Ne Fx); [apply tall_conditions; exact HC|]. rewrite wt_cons. unfold wt. rewrite RT, map_length. cbn [length]. lia.
        -- exists rt', ((a, y :: map fst l2) :: l1), ins, rem. split; [exact I|split; [exact G'|split; [|split; [hd_case|exact N]]]].
           right. split; [lia|]. exists (S (S k)), 0; left. split; [lia|split; [|lia]].
           change (lens ((a, y :: map fst l2) :: l1)) with (S (length (map fst l2)) :: lens l1). rewrite map_length, LL, L1. reflexivity.
      * destruct (dec_B l k j H0 ltac:(lia) Hl) as [l1 [q [y [t [l2 [Q [Len1 [Ht [Lz [L1 [Hq HC]]]]]]]]]]].
        destruct (insert_right rt l ts G a Ha x Fx l1 q y t l2 Q) as [rt' [ins [rem [I [G' N]]]]].
        -- destruct (spine_rtags l2 j Lz) as [RT LL]. assert (W2 : wt l2 = j) by (unfold wt; rewrite RT, map_length; exact LL).
           assert (Wl : wt l = wt l1 + (1 + S (length t) + wt l2)) by (rewrite Q, wt_app, wt_cons; cbn [length]; lia).
           fold s0. replace (wt l) with (length l1 + S (wt l - length l1 - 1)).
           2: { pose proof (wt_length l1). lia. }
           apply (find_spine s0 l2 q (y :: t) (Ok (y, RIGHT)) l1 1 NONE None).
           ++ rewrite <- Q; exact S0.
           ++ apply tall_conditions; exact HC.
           ++ intros dir' _ _. pose proof S0 as S1. rewrite Q in S1. destruct (spine_split _ _ _ _ S1) as [_ [[i Gq] [T S2]]].
              cbn [r_find]. unfold node_at at 1. rewrite Gq. cbn [bind r_height r_left r_right hd_error].
              destruct (Nat.ltb_spec (1 + length l1) (wt ((q, y :: t) :: l2))) as [_|C].
              2: { pose proof (tall_wt ((q, y :: t) :: l2)). lia. }
              cbn [tooth] in T. destruct T as [[iy [lf [rr [Gy Ow]]]] T].
              assert (Stop : forall f, r_find f (1 + (1 + length l1)) RIGHT y s0 = Ok (y, RIGHT)).
              { intros f. destruct f; cbn [r_find]; unfold node_at; rewrite Gy; cbn [bind r_height];
                  destruct (Nat.ltb_spec (1 + (1 + length l1)) (S (length t))); try reflexivity; lia. }
              pose proof (states_spine _ _ _ S2) as SS. destruct (first_of l2) as [c|] eqn:F2; [|exact (Stop _)].
              cbn [r_states] in SS. unfold node_at in SS |- *. destruct (dget s0 c) as [nc|] eqn:Gc; [|discriminate]. cbn [bind] in SS |- *. injection SS as Hc _.
              rewrite Gy; cbn [bind r_height]. rewrite Hc, W2. destruct (Nat.ltb_spec j (S (length t))); [exact (Stop _)|lia].
           ++ rewrite <- Q; exact Fx.
        -- eexists rt', _, ins, rem. split; [exact I|split; [exact G'|split; [|split; [hd_case|exact N]]]].
           apply (phase_not_two _ _ k (S j)); try lia.
           change (lens ((a, y :: t) :: l1 ++ (q, []) :: l2)) with (S (length t) :: lens (l1 ++ (q, []) :: l2)).
           rewrite lens_app. change (lens ((q, []) :: l2)) with (0 :: lens l2). rewrite Ht, L1, Lz.
           unfold shapeB. destruct k as [|k]; [lia|]. cbn [repeat app Nat.sub]. rewrite Nat.sub_0_r. reflexivity.
Qed.

Theorem insert_first a : exists rt', r_insert a r_empty = Ok (rt', ([], [])) /\ good rt' [(a, [])] [a] /\ phaseR 1 (lens [(a, @nil K)]).
Proof.
  eexists. split; [|split].
  - unfold r_insert, r_empty; cbn [r_root r_index dset length]. unfold r_set. unfold node_at at 1. cbn [dget]. rewrite teq_refl. cbn [bind dset]. rewrite teq_refl.
    cbn [length r_update]. unfold node_at. cbn [dget]. rewrite teq_refl. cbn [bind put_left r_left r_right r_parent r_states dset]. rewrite teq_refl.
    cbn [fst snd]. reflexivity.
  - split; cbn [r_root r_index].
    + reflexivity.
    + cbn [spine]. split; [|split; exact Logic.I]. eexists. cbn [dget]. rewrite teq_refl. reflexivity.
    + constructor; [intros []|constructor].
    + reflexivity.
    + reflexivity.
  - right. split; [lia|]. apply phase_one.
Qed.

Lemma insert_all_snoc ts a (t : rtree K) : r_insert_all (ts ++ [a]) t = (let* u := r_insert_all ts t in let* r := r_insert a u in Ok (fst r)).
Proof.
  revert t; induction ts as [|b ts IH]; intros t; cbn [app r_insert_all].
  - cbn [bind]. destruct (r_insert a t); reflexivity.
  - destruct (r_insert b t) as [r|e]; cbn [bind]; [apply IH|reflexivity].
Qed.

(** the state after any insertions *)
Theorem insertions ts : NoDup ts -> ts <> [] -> exists rt l, r_insert_all ts r_empty = Ok rt /\ good rt l ts /\
  phaseR (length ts) (lens l) /\ forall d, first_of l = Some (last ts d).
Proof.
  induction ts as [|a ts IH] using rev_ind; intros N Ne; [contradiction|].
  assert (Na : ~ In a ts /\ NoDup ts).
  { apply NoDup_remove in N as [A B]. rewrite app_nil_r in A, B. auto. }
  destruct Na as [Na N']. rewrite insert_all_snoc. destruct ts as [|b ts].
  - destruct (insert_first a) as [rt [I [G P]]]. exists rt, [(a, [])]. cbn [app r_insert_all bind]. rewrite I. cbn [bind fst].
    split; [reflexivity|split; [exact G|split; [exact P|reflexivity]]].
  - destruct (IH N' ltac:(discriminate)) as [rt [l [I [G [P F]]]]].
    destruct (insert_step rt l (b :: ts) a G ltac:(discriminate) P Na) as [rt' [l' [ins [rem [I' [G' [P' [[T [l1 [-> F']]] _]]]]]]]].
    set (l' := (a, T) :: l1) in *.
    exists rt', l'. rewrite I. cbn [bind]. rewrite I'. cbn [bind fst]. split; [reflexivity|split; [exact G'|split]].
    + rewrite app_length; cbn [length]. rewrite Nat.add_1_r. exact P'.
    + intros d. rewrite last_last. reflexivity.
Qed.
End R.
