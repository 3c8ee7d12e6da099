(** The order of adds to different lines does not matter (C133). *)
From Coq Require Import ZArith Lia Permutation.
From Verif Require Import Base Changesets Serialize Tokenizers SpecTokenizers Tree SpecTree TreeProofs TreeExact
  Versions SpecVersions SpecLine SpecLineage VersionsInv VersionsProofs VersionsFrame VersionsLineage SpecWays WaysNumbers
  DbTree DbTreeProofs SpecDb DbVersions VersionsShape VersionsWays VersionsWrites VersionsMore.
Local Open Scope nat_scope.

Section Order.
Context {K : Type} {E : Teq K} {O : TeqOk K}.
Implicit Type h : list (adding K).

(** ** Lines, heads and bases by what is built on what *)
Inductive chain h : K -> list K -> Prop :=
| chain_first x : added h x -> (forall y, ~ built_on h y x) -> chain h x [x]
| chain_next x y l : built_on h y x -> chain h y l -> chain h x (x :: l).

Lemma built_added h x y : built_on h x y -> added h y.
Proof. intros (pre & b & post & -> & _). unfold added. rewrite map_app, in_app_iff. right. now left. Qed.
Lemma chain_added h x l : chain h x l -> added h x.
Proof. intros [? H _|? y ? H _]; [exact H|now apply built_added in H]. Qed.
Lemma built_split h x y : NoDup (map tag_of h) -> built_on h x y ->
  forall pre a post, h = pre ++ a :: post -> tag_of a = y -> base_of a = Some x /\ is_head pre x.
Proof.
  intros N (p & b & q & -> & Hd) pre a post Eq Ta.
  assert (S : map tag_of (p ++ (y, b, Some x) :: q) = map tag_of p ++ y :: map tag_of q) by (rewrite map_app; reflexivity).
  assert (S' : map tag_of (p ++ (y, b, Some x) :: q) = map tag_of pre ++ y :: map tag_of post) by (rewrite Eq, map_app; cbn; now rewrite Ta).
  rewrite S in N, S'. destruct (nodup_split _ _ _ _ _ N S') as [L _]. apply (f_equal (@length K)) in L. rewrite !map_length in L.
  assert (Q : p = pre /\ (y, b, Some x) :: q = a :: post).
  { clear -Eq L. revert pre Eq L. induction p as [|z p IH]; intros [|z' pre] Eq L; cbn in *; try discriminate; auto.
    injection Eq as -> Eq. destruct (IH pre Eq ltac:(lia)) as [-> ->]. auto. }
  destruct Q as [-> Q]. injection Q as <- _. auto.
Qed.
Lemma built_front h a x y : NoDup (map tag_of (h ++ [a])) -> built_on (h ++ [a]) x y -> y <> tag_of a -> built_on h x y.
Proof.
  intros N (pre & b & post & Eq & Hd) Ny. destruct post as [|z post _] using rev_ind.
  - apply app_inj_tail in Eq as [-> ->]. now destruct Ny.
  - rewrite app_comm_cons, app_assoc in Eq. apply app_inj_tail in Eq as [-> ->]. exists pre, b, post. auto.
Qed.
Lemma chain_snoc h a x l : NoDup (map tag_of (h ++ [a])) -> chain h x l -> chain (h ++ [a]) x l.
Proof.
  intros N C. assert (Na : ~ added h (tag_of a)).
  { rewrite map_app in N. cbn in N. apply NoDup_remove in N as [_ N]. now rewrite app_nil_r in N. }
  induction C as [x Hx Hn|x y l Hb C IH].
  - apply chain_first.
    + unfold added in *. rewrite map_app, in_app_iff. now left.
    + intros y Hy. apply (Hn y). apply (built_front h a); auto. intros ->. contradiction.
  - apply (chain_next _ x y); [now apply built_on_snoc|exact IH].
Qed.
Lemma line_chain h x l : line h x l -> NoDup (map tag_of h) -> chain h x l.
Proof.
  assert (Fr : forall h a, NoDup (map tag_of (h ++ [a])) -> NoDup (map tag_of h)) by (intros h0 a N; rewrite map_app in N; now apply NoDup_front in N).
  induction 1 as [h a Hb|h a x l Hb Hx L IH|h a x l Hb L IH]; intros N.
  - apply chain_first; [unfold added; rewrite map_app, in_app_iff; right; now left|]. intros y Hy.
    destruct (built_split _ _ _ N Hy h a [] eq_refl eq_refl) as [B I]. rewrite B in Hb. contradiction.
  - apply (chain_next _ _ x).
    + destruct a as [[t b] base]. cbn in *. subst base. now apply built_on_last.
    + apply chain_snoc; [exact N|]. apply IH. now apply Fr in N.
  - apply chain_snoc; [exact N|]. apply IH. now apply Fr in N.
Qed.
Lemma built_one h x x' y : NoDup (map tag_of h) -> built_on h x y -> built_on h x' y -> x = x'.
Proof.
  intros N H (pre & b & post & Eq & _). destruct (built_split _ _ _ N H pre _ post Eq eq_refl) as [B _]. cbn in B. congruence.
Qed.
Lemma chain_same h h' : NoDup (map tag_of h) -> (forall x y, built_on h x y <-> built_on h' x y) ->
  forall x l, chain h x l -> forall l', chain h' x l' -> l = l'.
Proof.
  intros N B x l C. induction C as [x Hx Hn|x y l Hb C IH]; intros l' C'; inversion C' as [? Hx' Hn'|? y' m Hb' D]; subst.
  - reflexivity.
  - apply B in Hb'. now apply Hn in Hb'.
  - apply B in Hb. now apply Hn' in Hb.
  - f_equal. apply IH. apply B in Hb'. now rewrite (built_one h y y' x N Hb Hb').
Qed.
Lemma chain_later h x l t : chain h x l -> In t l -> t = x \/ later h t x.
Proof.
  induction 1 as [x Hx Hn|x y l Hb C IH]; intros Ht.
  - destruct Ht as [<-|[]]. now left.
  - destruct Ht as [<-|Ht]; [now left|]. right. destruct (IH Ht) as [->|L]; [now apply later_one|].
    apply (later_trans _ _ y); [exact L|now apply later_one].
Qed.
Lemma later_same h h' : (forall x y, built_on h x y <-> built_on h' x y) -> forall x y, later h x y -> later h' x y.
Proof. intros B x y L. induction L as [x y H|x y z H _ IH]; [apply later_one|eapply later_more]; eauto; now apply B. Qed.
Lemma head_built k h t : fresh k h -> (is_head h t <-> added h t /\ forall u, ~ built_on h t u).
Proof.
  intros F. split.
  - intros H. split; [now apply is_head_added|]. intros u Hu. exact (head_no_base h t u (proj1 F) H Hu).
  - revert F. induction h as [|a h IH] using rev_ind; intros F [A N]; [destruct A|].
    apply fresh_snoc in F as (F & Na & Nb & _). apply is_head_snoc; auto.
    unfold added in A. rewrite map_app, in_app_iff in A. destruct A as [A|[A|[]]]; [|now left].
    right. split.
    + apply IH; auto. split; [exact A|]. intros u Hu. apply (N u). now apply built_on_snoc.
    + intros Hb. apply (N (tag_of a)). destruct a as [[u b] base]. cbn in *. subst base. apply built_on_last.
      apply IH; auto. split; [exact A|]. intros u' Hu. apply (N u'). now apply built_on_snoc.
Qed.
Lemma fresh_perm k h h' : Permutation h h' -> fresh k h -> fresh k h'.
Proof.
  intros P [N F]. split; [apply (Permutation_NoDup (Permutation_map tag_of P) N)|apply (Permutation_Forall P F)].
Qed.
Lemma added_perm h h' t : Permutation h h' -> added h t -> added h' t.
Proof. intros P. apply Permutation_in. now apply Permutation_map. Qed.
Lemma V_of_perm h h' : NoDup (map tag_of h) -> Permutation h h' -> forall t, V_of h t = V_of h' t.
Proof.
  intros N P t. assert (N' : NoDup (map tag_of h')) by apply (Permutation_NoDup (Permutation_map tag_of P) N).
  destruct (V_of h t) as [b|] eqn:Q.
  - apply V_of_some in Q as [base Hin]. symmetry. apply (V_of_In h' t b base N'). now apply (Permutation_in _ P).
  - apply V_of_none in Q. symmetry. apply V_of_none. intros A. apply Q. apply (added_perm h' h); [now apply Permutation_sym|exact A].
Qed.

(** when every base is a head, an add is built on its base *)
Lemma valid_built k h x y : valid k h -> (built_on h x y <-> exists b, In (y, b, Some x) h).
Proof.
  intros [F V]. split.
  - intros (pre & b & post & -> & _). exists b. apply in_or_app. right. now left.
  - intros [b Hin]. apply in_split in Hin as (pre & post & ->). exists pre, b, post. split; [reflexivity|]. exact (V pre _ post eq_refl).
Qed.
Lemma valid_same k h h' : valid k h -> valid k h' -> Permutation h h' -> forall x y, built_on h x y <-> built_on h' x y.
Proof.
  intros V V' P x y. rewrite (valid_built k h), (valid_built k h') by assumption.
  split; intros [b H]; exists b; [now apply (Permutation_in _ P)|apply (Permutation_in _ (Permutation_sym P) H)].
Qed.

Variable re_w : Z -> bool.
Variable tk : tkind.
Variables HS DS : store K.
Variable TR : tree_impl K.
Variable HL : store_law HS.
Variable DL : store_law DS.
Variable TL : tree_law TR.
Context {TX : Exact TL}.
Notation run := (run re_w tk HS DS TR).
Notation hist_inv := (hist_inv re_w tk HS DS TR HL DL TL).

Theorem same_whatever_order h h' : tk <> KLine -> fresh tk h -> Permutation h h' ->
  (forall x y, built_on h x y <-> built_on h' x y) ->
  let v := run v_empty h in let v' := run v_empty h' in
  (forall t, view HL (heads v) t = view HL (heads v') t) /\
  (forall t, view DL (diffs v) t = view DL (diffs v') t) /\
  (forall t, tr_contains TR (tree v) t = tr_contains TR (tree v') t) /\
  (forall t, added h t -> exists p, tr_path_to TR (tree v) t = Ok (Some p) /\ tr_path_to TR (tree v') t = Ok (Some p)) /\
  (forall t, added h t -> exists b, tr_base TR (tree v) t = Ok b /\ tr_base TR (tree v') t = Ok b) /\
  (forall x, is_head h x -> is_head h' x /\ exists sp p, tr_get_split TR (tree v) x = Ok (sp, p) /\ tr_get_split TR (tree v') x = Ok (sp, p)).
Proof.
  intros Hk F P B v v'. pose proof (fresh_perm tk h h' P F) as F'. pose proof (proj1 F) as N. pose proof (proj1 F') as N'.
  assert (Hd : forall t, is_head h t <-> is_head h' t).
  { intros t. rewrite (head_built tk h t F), (head_built tk h' t F'). split; intros [A NB]; split.
    - now apply (added_perm h h').
    - intros u Hu. apply (NB u). now apply B.
    - apply (added_perm h' h); [now apply Permutation_sym|exact A].
    - intros u Hu. apply (NB u). now apply B. }
  assert (Ad : forall t, added h t <-> added h' t).
  { intros t. split; [now apply added_perm|]. apply added_perm. now apply Permutation_sym. }
  assert (Li : forall x ls, is_head h x -> line h x ls -> line h' x ls).
  { intros x ls Hx L. destruct (proj1 (exact_paths re_w tk HS DS TR HL DL TL h' Hk F') x) as (x' & ls' & Hx' & L' & Hin).
    - apply Ad. now apply is_head_added.
    - pose proof (line_chain h' x' ls' L' N') as C'. assert (x' = x) as ->.
      { destruct (chain_later h' x' ls' x C' Hin) as [->|La]; [reflexivity|]. apply Hd in Hx. destruct (head_no_later h' x x' N' Hx La). }
      pose proof (line_chain h x ls L N) as C. now rewrite (chain_same h h' N B x ls C ls' C'). }
  destruct (hist_ok re_w tk HS DS TR HL DL TL h Hk F) as [s I]. destruct (hist_ok re_w tk HS DS TR HL DL TL h' Hk F') as [s' I'].
  fold v in I. fold v' in I'.
  pose proof (h_core _ _ _ _ _ _ _ _ _ _ _ I) as Co. pose proof (h_core _ _ _ _ _ _ _ _ _ _ _ I') as Co'.
  pose proof (c_rep _ _ _ _ _ _ _ _ _ _ _ _ Co) as R. pose proof (c_rep _ _ _ _ _ _ _ _ _ _ _ _ Co') as R'.
  assert (Fun2 : forall (ls : list K) p q q', Forall2 (numbers ls) p q -> Forall2 (numbers ls) p q' -> q = q').
  { intros ls p q q' A. revert q'. induction A as [|i t p q Hi A IH]; intros q' A'; inversion A' as [|? t' ? q2 Hi' A2]; subst; [reflexivity|].
    f_equal; [unfold numbers in *; congruence|now apply IH]. }
  assert (Pa : forall t, added h t -> exists p, tr_path_to TR (tree v) t = Ok (Some p) /\ tr_path_to TR (tree v') t = Ok (Some p)).
  { intros t At. destruct (proj1 (exact_paths re_w tk HS DS TR HL DL TL h Hk F) t At) as (x & ls & Hx & L & Hin).
    destruct (In_nth_error (rev ls) t) as [i Hi]; [now apply -> in_rev|].
    assert (Lt : i < length ls) by (rewrite <- rev_length; apply nth_error_Some; congruence).
    destruct (way_exists _ _ Lt) as [w W].
    destruct (exact_ways re_w tk HS DS TR HL DL TL h Hk F x ls Hx L) as [X _]. destruct (X i t w Hi W) as (q & Q1 & Q2).
    destruct (exact_ways re_w tk HS DS TR HL DL TL h' Hk F' x ls (proj1 (Hd x) Hx) (Li x ls Hx L)) as [Y _]. destruct (Y i t w Hi W) as (q' & Q1' & Q2').
    rewrite (Fun2 ls w q q' Q2 Q2') in Q1. eauto. }
  assert (Up : forall t, added h t -> exists l, up s t l /\ up s' t l).
  { intros t At. destruct (inv_up re_w tk HS DS TR HL DL TL h _ s t I At) as [l U].
    destruct (inv_up re_w tk HS DS TR HL DL TL h' _ s' t I' (proj1 (Ad t) At)) as [l' U'].
    destruct (Pa t At) as (p & Q & Q'). rewrite (rep_path _ TL _ s t _ R U) in Q. rewrite (rep_path _ TL _ s' t _ R' U') in Q'.
    injection Q as <-. injection Q' as Q'. apply (f_equal (@rev K)) in Q'. rewrite !rev_involutive in Q'. subst l'. eauto. }
  assert (Pr : forall t n n', dget s t = Some n -> dget s' t = Some n' -> parent n = parent n').
  { intros t n n' Hn Hn'. destruct (Up t) as (l & U & U').
    - destruct (V_of h t) eqn:Vt.
      + apply V_of_some in Vt as [base Hin]. now apply In_added in Hin.
      + apply (c_dom _ _ _ _ _ _ _ _ _ _ _ _ Co) in Vt. congruence.
    - inversion U as [? m G1 G2|? m q r G1 G2 G3]; subst; inversion U' as [? m' G1' G2'|? m' q' r' G1' G2' G3']; subst; try congruence.
      + apply up_head in G3' as [? ?]. discriminate.
      + apply up_head in G3 as [? ?]. discriminate.
      + apply up_head in G3 as [z Z]. apply up_head in G3' as [z' Z']. rewrite Z in Z'. congruence. }
  assert (Vs : forall t, V_of h t = V_of h' t) by (now apply V_of_perm).
  assert (Ge : forall t, added h t -> exists n n', dget s t = Some n /\ dget s' t = Some n').
  { intros t At. destruct (dget s t) as [n|] eqn:G; [|apply (known_added re_w tk HS DS TR HL DL TL _ _ _ _ I) in G; contradiction].
    destruct (dget s' t) as [n'|] eqn:G'; [eauto|]. apply (known_added re_w tk HS DS TR HL DL TL _ _ _ _ I') in G'. now apply Ad in At. }
  assert (Nn : forall t, ~ added h t -> dget s t = None /\ dget s' t = None).
  { intros t Na. split; [now apply (known_added re_w tk HS DS TR HL DL TL _ _ _ _ I)|].
    apply (known_added re_w tk HS DS TR HL DL TL _ _ _ _ I'). now rewrite <- Ad. }
  assert (Dec : forall t, added h t \/ ~ added h t).
  { intros t. destruct (V_of h t) as [b|] eqn:Vt; [left|right; now apply V_of_none]. apply V_of_some in Vt as [base Hin]. now apply In_added in Hin. }
  repeat split.
  - intros t. destruct (is_head_dec re_w tk HS DS TR HL DL TL h t v s I) as [Ht|Ht].
    + destruct (Ge t (is_head_added _ _ Ht)) as (n & n' & G & G').
      rewrite (c_head _ _ _ _ _ _ _ _ _ _ _ _ Co t n G) by now apply (h_head _ _ _ _ _ _ _ _ _ _ _ I t n).
      rewrite (c_head _ _ _ _ _ _ _ _ _ _ _ _ Co' t n' G'); [apply Vs|]. apply (h_head _ _ _ _ _ _ _ _ _ _ _ I' t n' G'). now apply Hd.
    + destruct (view HL (heads v) t) eqn:X.
      { destruct Ht. apply (heads_view re_w tk HS DS TR HL DL TL _ _ _ _ I). congruence. }
      destruct (view HL (heads v') t) eqn:X'; [|reflexivity].
      destruct Ht. apply Hd. apply (heads_view re_w tk HS DS TR HL DL TL _ _ _ _ I'). congruence.
  - intros t. assert (None_case : forall (sx : nodes K) (vx : vstate HS DS TR), (dget sx t = None \/ exists n, dget sx t = Some n /\ parent n = None) ->
      tidy HS DS TR HL DL None vx sx -> view DL (diffs vx) t = None).
    { intros sx vx Hn Ti. destruct (view DL (diffs vx) t) eqn:X; [exfalso|reflexivity].
      destruct (proj2 (Ti t ltac:(discriminate))) as (m & G & Pm); [congruence|]. destruct Hn as [Hn|(n & Hn & Hp)]; congruence. }
    destruct (Dec t) as [At|Na].
    + destruct (Ge t At) as (n & n' & G & G'). pose proof (Pr t n n' G G') as Pn. destruct (parent n) as [q|] eqn:Pq.
      * destruct (Up t At) as (l & U & _). assert (Aq : added h q).
        { destruct (V_of h q) eqn:Vq; [apply V_of_some in Vq as [base Hin]; now apply In_added in Hin|].
          apply (c_dom _ _ _ _ _ _ _ _ _ _ _ _ Co) in Vq. inversion U as [? m G1 G2|? m q' r G1 G2 G3]; subst; [congruence|].
          assert (q' = q) as -> by congruence. now apply up_known in G3. }
        destruct (V_of h q) as [bq|] eqn:Vq; [|apply V_of_none in Vq; contradiction].
        destruct (V_of h t) as [bt|] eqn:Vt; [|apply V_of_none in Vt; contradiction].
        destruct (c_diff _ _ _ _ _ _ _ _ _ _ _ _ Co t n q bq bt G Pq Vq Vt ltac:(discriminate)) as (d & D1 & it & D2 & D3).
        destruct (c_diff _ _ _ _ _ _ _ _ _ _ _ _ Co' t n' q bq bt G' (eq_sym Pn) ltac:(now rewrite <- Vs) ltac:(now rewrite <- Vs) ltac:(discriminate)) as (d' & D1' & it' & D2' & D3').
        congruence.
      * rewrite (None_case s v), (None_case s' v'); eauto; [apply (h_tidy _ _ _ _ _ _ _ _ _ _ _ I')|apply (h_tidy _ _ _ _ _ _ _ _ _ _ _ I)].
    + destruct (Nn t Na) as [G G']. rewrite (None_case s v), (None_case s' v'); auto; [apply (h_tidy _ _ _ _ _ _ _ _ _ _ _ I')|apply (h_tidy _ _ _ _ _ _ _ _ _ _ _ I)].
  - intros t. rewrite (rep_contains _ TL _ s t R), (rep_contains _ TL _ s' t R'). unfold dmem. destruct (Dec t) as [At|Na].
    + destruct (Ge t At) as (n & n' & -> & ->). reflexivity.
    + destruct (Nn t Na) as [-> ->]. reflexivity.
  - exact Pa.
  - intros t At. destruct (Ge t At) as (n & n' & G & G').
    apply in_map_iff in At as ([[u b] base] & <- & Hin). cbn in *.
    destruct (h_base _ _ _ _ _ _ _ _ _ _ _ I u b base Hin) as (m & Gm & Bm).
    destruct (h_base _ _ _ _ _ _ _ _ _ _ _ I' u b base (Permutation_in _ P Hin)) as (m' & Gm' & Bm').
    exists base. rewrite (rep_base _ TL _ s u m R Gm), (rep_base _ TL _ s' u m' R' Gm'), Bm, Bm'. auto.
  - now apply Hd.
  - destruct (proj1 (exact_paths re_w tk HS DS TR HL DL TL h Hk F) x (is_head_added _ _ H)) as (x' & ls & Hx & L & Hin).
    assert (x' = x) as ->.
    { destruct (chain_later h x' ls x (line_chain h x' ls L N) Hin) as [->|La]; [reflexivity|]. destruct (head_no_later h x x' N H La). }
    destruct (exact_ways re_w tk HS DS TR HL DL TL h Hk F x ls Hx L) as [_ (y & p & sp & q & M1 & M2 & M3 & M4 & M5)].
    destruct (exact_ways re_w tk HS DS TR HL DL TL h' Hk F' x ls (proj1 (Hd x) Hx) (Li x ls Hx L)) as [_ (y' & p' & sp' & q' & M1' & M2' & M3' & M4' & M5')].
    assert (Lp : 0 < length ls) by (destruct ls; [destruct Hin|cbn; lia]).
    destruct (moves_unique (length ls) Lp) as (z & _ & Uz). assert (y' = y) as -> by (rewrite <- (Uz y M1), <- (Uz y' M1'); reflexivity).
    assert (Ly : y < length ls) by (rewrite <- rev_length; apply nth_error_Some; unfold numbers in M3; congruence).
    destruct (way_one _ _ Ly) as (w & _ & Uw). assert (p' = p) as -> by (rewrite <- (Uw p M2), <- (Uw p' M2'); reflexivity).
    exists sp, q. split; [exact M5|]. rewrite (Fun2 ls p q q' M4 M4'). assert (sp = sp') as -> by (unfold numbers in *; congruence). exact M5'.
Qed.
End Order.

(** ** Two adds that follow each other *)
Section Exchange.
Context {K : Type} {E : Teq K} {O : TeqOk K}.
Implicit Type h : list (adding K).
Lemma is_head_two h a b t : NoDup (map tag_of (h ++ [a; b])) -> base_of a <> Some (tag_of a) -> base_of b <> Some (tag_of b) -> base_of b <> Some (tag_of a) ->
  (is_head (h ++ [a; b]) t <-> t = tag_of b \/ t = tag_of a \/ is_head h t /\ base_of a <> Some t /\ base_of b <> Some t).
Proof.
  intros N Sa Sb Ba. change [a; b] with ([a] ++ [b]) in *. rewrite app_assoc in *.
  assert (N1 : ~ added (h ++ [a]) (tag_of b)) by (rewrite map_app in N; cbn in N; apply NoDup_remove in N as [_ N]; now rewrite app_nil_r in N).
  assert (N2 : ~ added h (tag_of a)).
  { rewrite map_app in N. apply NoDup_front in N. rewrite map_app in N. cbn in N. apply NoDup_remove in N as [_ N]. now rewrite app_nil_r in N. }
  rewrite is_head_snoc by assumption. rewrite is_head_snoc by assumption. split.
  - intros [->|[[->|[H1 H2]] H3]]; auto.
  - intros [->|[->|(H1 & H2 & H3)]]; auto.
Qed.
Lemma heads_after h h' t : (forall u, is_head h u <-> is_head h' u) -> forall post, NoDup (map tag_of (h ++ post)) -> NoDup (map tag_of (h' ++ post)) ->
  Forall (fun a => base_of a <> Some (tag_of a)) post -> (is_head (h ++ post) t <-> is_head (h' ++ post) t).
Proof.
  intros Hh. induction post as [|a post IH] using rev_ind; intros N N' F; [rewrite !app_nil_r; apply Hh|].
  apply Forall_app in F as [F Fa]. apply Forall_inv in Fa. rewrite !app_assoc in *.
  assert (X : forall (g : list (adding K)), NoDup (map tag_of (g ++ [a])) -> NoDup (map tag_of g) /\ ~ added g (tag_of a)).
  { intros g G. rewrite map_app in G. cbn in G. split; [now apply NoDup_front in G|]. apply NoDup_remove in G as [_ G]. now rewrite app_nil_r in G. }
  destruct (X _ N) as [M1 A1]. destruct (X _ N') as [M2 A2]. rewrite (is_head_snoc _ _ _ A1 Fa), (is_head_snoc _ _ _ A2 Fa), (IH M1 M2 F). tauto.
Qed.
Theorem exchange k (pre : list (adding K)) a b post : valid k (pre ++ a :: b :: post) -> base_of b <> Some (tag_of a) -> valid k (pre ++ b :: a :: post).
Proof.
  intros [F V] Ba. assert (P : Permutation (pre ++ a :: b :: post) (pre ++ b :: a :: post)) by (apply Permutation_app_head, perm_swap).
  pose proof (fresh_perm k _ _ P F) as F'. split; [exact F'|].
  destruct F as [N G]. destruct F' as [N' G'].
  assert (Gs : Forall (fun a => base_of a <> Some (tag_of a)) (pre ++ a :: b :: post)) by (revert G; apply Forall_impl; tauto).
  apply Forall_app in Gs as [_ Gs]. inversion Gs as [|? ? Sa Gs1]; subst. inversion Gs1 as [|? ? Sb Sp]; subst.
  assert (Va := V pre a (b :: post) eq_refl). assert (Vb := V (pre ++ [a]) b post ltac:(now rewrite <- app_assoc)).
  assert (Na : ~ added pre (tag_of a)) by (rewrite map_app in N; cbn in N; apply NoDup_remove in N as [_ N]; intros Q; apply N, in_or_app; now left).
  assert (Nb : ~ added pre (tag_of b)) by (rewrite map_app in N'; cbn in N'; apply NoDup_remove in N' as [_ N']; intros Q; apply N', in_or_app; now left).
  assert (Ab : base_of a <> Some (tag_of b)) by (intros Q; rewrite Q in Va; now apply is_head_added in Va).
  assert (Vb' : match base_of b with None => True | Some x => is_head pre x /\ base_of a <> Some x end).
  { destruct (base_of b) as [x|]; [|exact Logic.I]. apply is_head_snoc in Vb; auto. destruct Vb as [->|Vb]; [now destruct Ba|exact Vb]. }
  intros pre0 c post0 Eq. apply app_eq_app in Eq as [m [[E1 E2]|[E1 E2]]].
  - destruct m as [|z m]; cbn in E2.
    + injection E2 as -> ->. rewrite app_nil_r in E1. subst pre0. destruct (base_of b) as [x|]; [apply Vb'|exact Logic.I].
    + injection E2 as -> ->. subst pre. apply (V pre0 z (m ++ a :: b :: post)). now rewrite <- app_assoc.
  - destruct m as [|z1 m]; cbn in E2.
    { rewrite app_nil_r in E1. subst pre0. injection E2 as <- _. destruct (base_of b) as [x|]; [apply Vb'|exact Logic.I]. }
    injection E2 as <- E2. destruct m as [|z2 m]; cbn in E2.
    + injection E2 as <- <-. subst pre0. destruct (base_of a) as [x|] eqn:Qa; [|exact Logic.I]. apply is_head_snoc; auto. right. split; [exact Va|].
      intros Q. rewrite Q in Vb'. now destruct Vb'.
    + injection E2 as <- E2. subst pre0 post. pose proof (V (pre ++ a :: b :: m) c post0 ltac:(now rewrite <- app_assoc)) as Vc.
      destruct (base_of c) as [x|]; [|exact Logic.I]. revert Vc.
      assert (S1 : forall (u w : adding K), pre ++ u :: w :: m = (pre ++ [u; w]) ++ m) by (intros; now rewrite <- app_assoc). rewrite !S1.
      assert (N1 : NoDup (map tag_of ((pre ++ [a; b]) ++ m))).
      { change (a :: b :: m ++ c :: post0) with ([a; b] ++ m ++ c :: post0) in N. rewrite !app_assoc, map_app in N. now apply NoDup_front in N. }
      assert (N2 : NoDup (map tag_of ((pre ++ [b; a]) ++ m))).
      { change (b :: a :: m ++ c :: post0) with ([b; a] ++ m ++ c :: post0) in N'. rewrite !app_assoc, map_app in N'. now apply NoDup_front in N'. }
      apply heads_after; auto.
      * intros u. rewrite map_app in N1, N2. apply NoDup_front in N1. apply NoDup_front in N2.
        rewrite (is_head_two pre a b u N1 Sa Sb Ba), (is_head_two pre b a u N2 Sb Sa Ab). tauto.
      * apply Forall_app in Sp as [Sp _]. exact Sp.
Qed.
End Exchange.

Section Both.
Context {K : Type} {E : Teq K} {O : TeqOk K}.
Variable re_w : Z -> bool.
Variable tk : tkind.
Notation D := (dict_store K).
Notation C := (db_store K).
Notation M := (memory_tree K).
Notation T := (db_tree K).
Theorem order_memory h h' : tk <> KLine -> fresh tk h -> Permutation h h' -> (forall x y, built_on h x y <-> built_on h' x y) ->
  let v := run re_w tk D D M v_empty h in let v' := run re_w tk D D M v_empty h' in
  (forall t, dget (heads v) t = dget (heads v') t) /\ (forall t, dget (diffs v) t = dget (diffs v') t) /\
  (forall t, get re_w tk D D M v t = get re_w tk D D M v' t) /\
  (forall t, version_info D D M v t = version_info D D M v' t) /\
  (forall t, added h t -> m_path_to (tree v) t = m_path_to (tree v') t) /\
  (forall x, is_head h x -> m_get_split (tree v) x = m_get_split (tree v') x).
Proof.
  intros Hk F P B v v'. destruct (same_whatever_order re_w tk D D M dict_law dict_law memory_law h h' Hk F P B) as (H1 & H2 & H3 & H4 & H5 & H6).
  destruct (retrieval re_w tk D D M dict_law dict_law memory_law h Hk F) as [G1 G2].
  destruct (retrieval re_w tk D D M dict_law dict_law memory_law h' Hk (fresh_perm tk h h' P F)) as [G1' G2'].
  assert (Dec : forall t, added h t \/ ~ added h t).
  { intros t. destruct (V_of h t) as [b|] eqn:Vt; [left|right; now apply V_of_none]. apply V_of_some in Vt as [base Hin]. now apply In_added in Hin. }
  repeat split.
  - exact H1.
  - exact H2.
  - intros t. destruct (Dec t) as [At|Na].
    + apply in_map_iff in At as ([[u b] base] & <- & Hin). cbn. unfold v, v'. rewrite (G1 _ _ _ Hin), (G1' u b base); [reflexivity|]. now apply (Permutation_in _ P).
    + unfold v, v'. rewrite (G2 t Na), (G2' t); [reflexivity|]. intros A. apply Na. apply (added_perm h' h); [now apply Permutation_sym|exact A].
  - intros t. destruct (Dec t) as [At|Na].
    + unfold version_info. cbn [s_dot_get dict_store]. specialize (H1 t). specialize (H2 t). cbn [view dict_law] in H1, H2. unfold v, v'. rewrite H1, H2.
      destruct (H5 t At) as (b & Q1 & Q2). now rewrite Q1, Q2.
    + unfold v, v'. destruct (reported_dict re_w tk h Hk F) as (_ & _ & _ & X). destruct (reported_dict re_w tk h' Hk (fresh_perm tk h h' P F)) as (_ & _ & _ & X').
      rewrite (X t Na), (X' t); [reflexivity|]. intros A. apply Na. apply (added_perm h' h); [now apply Permutation_sym|exact A].
  - intros t At. destruct (H4 t At) as (p & Q1 & Q2). exact (eq_trans Q1 (eq_sym Q2)).
  - intros x Hx. destruct (H6 x Hx) as (_ & sp & p & Q1 & Q2). exact (eq_trans Q1 (eq_sym Q2)).
Qed.
Theorem order_db place1 place2 h h' : tk <> KLine -> fresh tk h -> Permutation h h' -> (forall x y, built_on h x y <-> built_on h' x y) ->
  let v := run re_w tk (C place1) (C place2) T v_empty h in let v' := run re_w tk (C place1) (C place2) T v_empty h' in
  (forall t, s_get (C place1) (heads v) t = s_get (C place1) (heads v') t) /\
  (forall t, s_get (C place2) (diffs v) t = s_get (C place2) (diffs v') t) /\
  (forall t, get re_w tk (C place1) (C place2) T v t = get re_w tk (C place1) (C place2) T v' t) /\
  (forall t, added h t -> d_path_to (tree v) t = d_path_to (tree v') t) /\
  (forall x, is_head h x -> d_get_split (tree v) x = d_get_split (tree v') x).
Proof.
  intros Hk F P B v v'.
  destruct (same_whatever_order re_w tk (C place1) (C place2) T (db_store_law place1) (db_store_law place2) db_law h h' Hk F P B) as (H1 & H2 & H3 & H4 & H5 & H6).
  destruct (retrieval re_w tk (C place1) (C place2) T (db_store_law place1) (db_store_law place2) db_law h Hk F) as [G1 G2].
  destruct (retrieval re_w tk (C place1) (C place2) T (db_store_law place1) (db_store_law place2) db_law h' Hk (fresh_perm tk h h' P F)) as [G1' G2'].
  assert (Dec : forall t, added h t \/ ~ added h t).
  { intros t. destruct (V_of h t) as [b|] eqn:Vt; [left|right; now apply V_of_none]. apply V_of_some in Vt as [base Hin]. now apply In_added in Hin. }
  repeat split.
  - intros t. rewrite !(view_get _ (db_store_law place1)). unfold v, v'. now rewrite H1.
  - intros t. rewrite !(view_get _ (db_store_law place2)). unfold v, v'. now rewrite H2.
  - intros t. destruct (Dec t) as [At|Na].
    + apply in_map_iff in At as ([[u b] base] & <- & Hin). cbn. unfold v, v'. rewrite (G1 _ _ _ Hin), (G1' u b base); [reflexivity|]. now apply (Permutation_in _ P).
    + unfold v, v'. rewrite (G2 t Na), (G2' t); [reflexivity|]. intros A. apply Na. apply (added_perm h' h); [now apply Permutation_sym|exact A].
  - intros t At. destruct (H4 t At) as (p & Q1 & Q2). exact (eq_trans Q1 (eq_sym Q2)).
  - intros x Hx. destruct (H6 x Hx) as (_ & sp & p & Q1 & Q2). exact (eq_trans Q1 (eq_sym Q2)).
Qed.
End Both.
