From Verif Require Import Base RBase CasModel CasSpec LnpModel LnpSpec.
From Coq Require Import Lra.

Lemma scalar_iff : forall x, is_scalar x = true <-> one x.
Proof. intro x. unfold is_scalar, one. rewrite andb_true_iff, !Nat.eqb_eq. reflexivity. Qed.
Lemma cbin_agree : forall f x y, agreeing x y -> exists t, cbin f x y = Ok t /\ np_binary f x y t.
Proof.
  intros f x y H. unfold cbin.
  destruct (is_scalar x) eqn:Sx.
  { apply scalar_iff in Sx. destruct Sx as [Hr Hc]. eexists. split; [reflexivity|]. unfold np_binary, bdim, bentry, cmap1. cbn [cr cc ce]. rewrite Hr, Hc. cbn [Nat.eqb].
    split; [lia|]. split; [lia|]. intros i j Hi Hj. destruct (Nat.eqb_spec (cr y) 1), (Nat.eqb_spec (cc y) 1); f_equal; f_equal; lia. }
  destruct (is_scalar y) eqn:Sy.
  { apply scalar_iff in Sy. destruct Sy as [Hr Hc]. eexists. split; [reflexivity|]. unfold np_binary, bdim, bentry, cmap1. cbn [cr cc ce]. rewrite Hr, Hc. cbn [Nat.eqb].
    split; [lia|]. split; [lia|]. intros i j Hi Hj. destruct (Nat.eqb_spec (cr x) 1), (Nat.eqb_spec (cc x) 1); f_equal; f_equal; lia. }
  assert (~ one x) as Nx by (rewrite <- scalar_iff; congruence). assert (~ one y) as Ny by (rewrite <- scalar_iff; congruence).
  destruct (andb (Nat.eqb (cr x) (cr y)) (Nat.eqb (cc x) (cc y))) eqn:E.
  { apply andb_prop in E. destruct E as [E1 E2]. apply Nat.eqb_eq in E1, E2. eexists. split; [reflexivity|]. unfold np_binary, bdim, bentry, czip. cbn [cr cc ce]. rewrite <- E1, <- E2.
    split; [lia|]. split; [lia|]. intros i j Hi Hj. destruct (Nat.eqb_spec (cr x) 1), (Nat.eqb_spec (cc x) 1); f_equal; f_equal; lia. }
  destruct H as [H | [H | [H | H]]]; [tauto|tauto| |].
  { destruct H as [H1 H2]. rewrite H1, H2, !Nat.eqb_refl in E. discriminate. }
  destruct H as (H1 & H2 & H3 & H4). rewrite H1, Nat.eqb_refl in E |- *. cbn [andb] in E. apply Nat.eqb_neq in E.
  replace (Nat.ltb 0 (cc x)) with true by (symmetry; now apply Nat.ltb_lt). replace (Nat.ltb 0 (cc y)) with true by (symmetry; now apply Nat.ltb_lt). cbn [andb].
  destruct H4 as [H4 | H4].
  - rewrite H4 in *. replace (Nat.eqb (1 mod cc y) 0) with false by (symmetry; apply Nat.eqb_neq; rewrite Nat.mod_small by lia; lia). rewrite Nat.mod_1_r, Nat.eqb_refl.
    eexists. split; [reflexivity|]. unfold np_binary, bdim, bentry, czip, repmat_h. cbn [cr cc ce]. rewrite H4, Nat.div_1_r, H1. cbn [Nat.eqb].
    split; [lia|]. split; [lia|]. intros i j Hi Hj. rewrite Nat.mod_1_r. destruct (Nat.eqb_spec (cr y) 1), (Nat.eqb_spec (cc y) 1); f_equal; f_equal; lia.
  - rewrite H4 in *. rewrite Nat.mod_1_r, Nat.eqb_refl.
    eexists. split; [reflexivity|]. unfold np_binary, bdim, bentry, czip, repmat_h. cbn [cr cc ce]. rewrite H4, H1. cbn [Nat.eqb].
    split; [lia|]. split; [lia|]. intros i j Hi Hj. rewrite Nat.mod_1_r. destruct (Nat.eqb_spec (cr y) 1), (Nat.eqb_spec (cc x) 1); f_equal; f_equal; lia.
Qed.
Lemma cbin_same : forall f x y r c, cr x = r -> cr y = r -> cc x = c -> cc y = c -> exists t, cbin f x y = Ok t /\ is_mat t r c (fun i j => f (ce x i j) (ce y i j)).
Proof.
  intros f x y r c H1 H2 H3 H4. destruct (cbin_agree f x y) as (t & E & B1 & B2 & B3). { unfold agreeing. right. right. left. split; congruence. }
  exists t. split; [exact E|]. unfold bdim in *. split; [lia|]. split; [lia|]. intros i j Hi Hj. rewrite B3 by lia. unfold bentry.
  destruct (Nat.eqb_spec (cr x) 1), (Nat.eqb_spec (cc x) 1), (Nat.eqb_spec (cr y) 1), (Nat.eqb_spec (cc y) 1); f_equal; f_equal; lia.
Qed.

(** ** where *)
Lemma cbin_fits : forall f x y r c, fits x r c -> fits y r c -> exists t, cbin f x y = Ok t /\ fits t r c /\ ((cr x = r /\ cc x = c) \/ (cr y = r /\ cc y = c) -> cr t = r /\ cc t = c) /\
  forall i j, (i < cr t)%nat -> (j < cc t)%nat -> ce t i j = f (bentry x i j) (bentry y i j).
Proof.
  intros f x y r c Hx Hy. destruct (cbin_agree f x y) as (t & E & B1 & B2 & B3). { unfold agreeing, fits, one in *. lia. }
  exists t. split; [exact E|]. unfold bdim, fits, one in *. split; [|split; [|exact B3]]; lia.
Qed.
Lemma bentry_in : forall x r c i j, fits x r c -> (i < r)%nat -> (j < c)%nat -> (cr x = r /\ cc x = c -> bentry x i j = ce x i j) /\ (one x -> bentry x i j = ce x 0 0).
Proof.
  intros x r c i j H Hi Hj. unfold bentry, one. split; intros [H1 H2]; rewrite H1, H2; [|reflexivity]. destruct (Nat.eqb_spec r 1), (Nat.eqb_spec c 1); f_equal; lia.
Qed.
Lemma truth_not : forall a, truth (of_bool (negb (truth a))) = negb (truth a).
Proof. intro a. destruct (truth a); cbn [negb of_bool]; unfold truth; destruct Req_EM_T; try reflexivity; lra. Qed.
Lemma one_back : forall x y w r k, fits x r k -> fits y r k -> ((cr x = r /\ cc x = k) \/ (cr y = r /\ cc y = k) -> cr w = r /\ cc w = k) -> one w -> one x /\ one y.
Proof.
  intros x y w r k Fx Fy S [O1 O2]. assert ((cr x = r /\ cc x = k) \/ (cr y = r /\ cc y = k) -> r = 1%nat /\ k = 1%nat) as K by (intro H; destruct (S H); split; congruence).
  split; [destruct Fx as [[e1 e2]|]|destruct Fy as [[e1 e2]|]]; try assumption; unfold one; destruct K; [now left|split; congruence|now right|split; congruence].
Qed.
Lemma where_ok : forall c t f r k, fits (dm c) r k -> fits (dm t) r k -> fits (dm f) r k -> ((cr (dm c) = r /\ cc (dm c) = k) \/ (cr (dm t) = r /\ cc (dm t) = k) \/ (cr (dm f) = r /\ cc (dm f) = k)) ->
  exists z, lnp_where c t f = Ok z /\ is_mat z r k (fun i j => if Req_EM_T (bentry (dm c) i j) 0 then bentry (dm f) i j else bentry (dm t) i j).
Proof.
  intros c t f r k Hc Ht Hf Hs. unfold lnp_where. destruct (cbin_fits if_else_zero (dm c) (dm t) r k Hc Ht) as (a & Ea & Fa & Sa & Va). rewrite Ea. cbn [bind].
  assert (fits (lnp_logical_not (dm c)) r k) as Hn by exact Hc.
  destruct (cbin_fits if_else_zero (lnp_logical_not (dm c)) (dm f) r k Hn Hf) as (b & Eb & Fb & Sb & Vb). rewrite Eb. cbn [bind].
  destruct (cbin_fits Rplus a b r k Fa Fb) as (z & Ez & Fz & Sz & Vz). exists z. split; [exact Ez|].
  assert (cr z = r /\ cc z = k) as [Hz1 Hz2]. { apply Sz. destruct Hs as [Hs | [Hs | Hs]]; [left; apply Sa; now left|left; apply Sa; now right|right; apply Sb; now right]. }
  split; [exact Hz1|]. split; [exact Hz2|]. intros i j Hi Hj. rewrite Vz by lia.
  assert (forall x y w, fits x r k -> fits y r k -> fits w r k -> (forall i j, (i < cr w)%nat -> (j < cc w)%nat -> ce w i j = if_else_zero (bentry x i j) (bentry y i j)) -> (one w -> one x /\ one y) ->
    bentry w i j = if_else_zero (bentry x i j) (bentry y i j)) as K.
  { intros x y w Fx Fy Fw V O. destruct (bentry_in w r k i j Fw Hi Hj) as [B1 B2]. destruct (Nat.eq_dec (cr w) r) as [e1|e1]; [destruct (Nat.eq_dec (cc w) k) as [e2|e2]|].
    - rewrite B1 by tauto. apply V; lia.
    - assert (one w) as Ow by (unfold fits in Fw; tauto). rewrite (B2 Ow). destruct (O Ow) as [Ox Oy]. rewrite V by (destruct Ow as [o1 o2]; rewrite ?o1, ?o2; apply Nat.lt_0_1). unfold bentry, one in *. destruct Ox as [-> ->], Oy as [-> ->]. reflexivity.
    - assert (one w) as Ow by (unfold fits in Fw; tauto). rewrite (B2 Ow). destruct (O Ow) as [Ox Oy]. rewrite V by (destruct Ow as [o1 o2]; rewrite ?o1, ?o2; apply Nat.lt_0_1). unfold bentry, one in *. destruct Ox as [-> ->], Oy as [-> ->]. reflexivity. }
  rewrite (K (dm c) (dm t) a Hc Ht Fa Va).
  2:{ exact (one_back _ _ _ _ _ Hc Ht Sa). }
  rewrite (K (lnp_logical_not (dm c)) (dm f) b Hn Hf Fb Vb).
  2:{ exact (one_back _ _ _ _ _ Hn Hf Sb). }
  assert (bentry (lnp_logical_not (dm c)) i j = of_bool (negb (truth (bentry (dm c) i j)))) as -> by reflexivity.
  unfold if_else_zero. rewrite truth_not. unfold truth. destruct Req_EM_T; cbn [negb]; lra.
Qed.

(** ** all, any *)
Lemma in_entries : forall x a, In a (entries x) <-> exists i j, (i < cr x)%nat /\ (j < cc x)%nat /\ a = ce x i j.
Proof.
  intros x a. unfold entries. rewrite in_flat_map. split.
  - intros (j & Hj & H). apply in_map_iff in H. destruct H as (i & <- & Hi). apply in_seq in Hi, Hj. exists i, j. repeat split; lia.
  - intros (i & j & Hi & Hj & ->). exists j. split; [apply in_seq; lia|]. apply in_map_iff. exists i. split; [reflexivity|apply in_seq; lia].
Qed.

(** ** entries in column-major order *)
Lemma flat_map_map2 : forall (f g : nat -> nat -> R) r l, map2 Rmult (flat_map (fun j => map (fun i => f i j) (seq 0 r)) l) (flat_map (fun j => map (fun i => g i j) (seq 0 r)) l) =
  flat_map (fun j => map (fun i => f i j * g i j) (seq 0 r)) l.
Proof.
  intros f g r. assert (forall (a b : list R) (c d : list R), List.length a = List.length b -> map2 Rmult (a ++ c) (b ++ d) = map2 Rmult a b ++ map2 Rmult c d) as A.
  { induction a as [|x a IH]; intros [|y b] c d H; try discriminate; [reflexivity|]. cbn. now rewrite IH by now injection H. }
  assert (forall (s : list nat) (u v : nat -> R), map2 Rmult (map u s) (map v s) = map (fun i => u i * v i) s) as B.
  { induction s as [|x s IH]; intros u v; [reflexivity|]. cbn. now rewrite IH. }
  induction l as [|j l IH]; [reflexivity|]. cbn [flat_map]. rewrite A by now rewrite !map_length. rewrite B, IH. reflexivity.
Qed.
Lemma rsum_flat : forall (f : nat -> nat -> R) r l, rsum (flat_map (fun j => map (fun i => f i j) (seq 0 r)) l) = rsum (map (fun j => rsum (map (fun i => f i j) (seq 0 r))) l).
Proof. intros f r. induction l as [|j l IH]; [reflexivity|]. cbn [flat_map map rsum]. now rewrite rsum_app, IH. Qed.
Lemma dot_ok : forall x y, cr x = cr y -> cc x = cc y -> cas_dot x y = Ok (cscalar (rsum (map (fun j => rsum (map (fun i => ce x i j * ce y i j) (seq 0 (cr x)))) (seq 0 (cc x))))).
Proof. intros x y H1 H2. unfold cas_dot. rewrite H1, H2, !Nat.eqb_refl. cbn [andb]. unfold entries. rewrite H1, H2, flat_map_map2, rsum_flat. reflexivity. Qed.
Lemma map_entries : forall (f : R -> R) x, map f (entries x) = flat_map (fun j => map (fun i => f (ce x i j)) (seq 0 (cr x))) (seq 0 (cc x)).
Proof. intros f x. unfold entries. induction (seq 0 (cc x)) as [|j l IH]; [reflexivity|]. cbn [flat_map]. rewrite map_app, map_map, IH. reflexivity. Qed.

(** ** concatenation *)
Lemma vertcat_snoc : forall l y, cas_vertcat (l ++ [y]) = bind (cas_vertcat l) (fun x => vcat2 x y).
Proof. intros l y. unfold cas_vertcat. rewrite fold_left_app. reflexivity. Qed.
Lemma horzcat_snoc : forall l y, cas_horzcat (l ++ [y]) = bind (cas_horzcat l) (fun x => hcat2 x y).
Proof. intros l y. unfold cas_horzcat. rewrite fold_left_app. reflexivity. Qed.
Lemma empty_iff : forall x, is_empty x = true <-> cr x = 0%nat /\ cc x = 0%nat.
Proof. intro x. unfold is_empty. now rewrite andb_true_iff, !Nat.eqb_eq. Qed.
Lemma before_snoc : forall size l y k, (k <= List.length l)%nat -> before size (l ++ [y]) k = before size l k.
Proof. intros size l y k H. unfold before. rewrite firstn_app. replace (k - List.length l)%nat with 0%nat by lia. cbn [firstn]. now rewrite app_nil_r. Qed.
Lemma before_lt : forall size l k, (k < List.length l)%nat -> (before size l k + size (nth k l cempty) <= list_sum (map size l))%nat.
Proof.
  intros size l. induction l as [|x l IH]; intros k Hk; [cbn in Hk; lia|]. destruct k as [|k].
  - cbn. lia.
  - cbn in Hk. specialize (IH k ltac:(lia)). unfold before in *. cbn [firstn map list_sum fold_right nth] in *. unfold list_sum in *. lia.
Qed.
Lemma before_all : forall size l, before size l (List.length l) = list_sum (map size l).
Proof. intros. unfold before. now rewrite firstn_all. Qed.
Lemma vertcat_ok : forall l n, l <> [] -> (forall x, In x l -> cc x = n) -> exists t, cas_vertcat l = Ok t /\ cr t = list_sum (map cr l) /\ cc t = n /\
  forall k i j, (k < List.length l)%nat -> (i < cr (nth k l cempty))%nat -> (j < n)%nat -> ce t (before cr l k + i) j = ce (nth k l cempty) i j.
Proof.
  induction l as [|y l IH] using rev_ind; intros n Hne H; [congruence|]. rewrite vertcat_snoc. destruct l as [|x0 l0].
  - cbn [cas_vertcat fold_left bind app]. unfold vcat2. cbn [is_empty cempty cr cc Nat.eqb andb]. exists y. split; [reflexivity|]. cbn. split; [lia|]. split; [apply H; now left|].
    intros k i j Hk Hi Hj. assert (k = 0)%nat as -> by lia. reflexivity.
  - assert (cc y = n) as Hy by (apply H; apply in_or_app; right; now left).
    destruct (IH n ltac:(congruence)) as (t & Et & Rt & Ct & Vt); [intros z Hz; apply H; apply in_or_app; now left|]. set (l := x0 :: l0) in *. rewrite Et. cbn [bind].
    assert (cr t + cr y = list_sum (map cr (l ++ [y])))%nat as RS by (rewrite map_app, list_sum_app; cbn [map list_sum fold_right]; lia).
    unfold vcat2. destruct (is_empty t) eqn:Ee.
    { apply empty_iff in Ee. exists y. split; [reflexivity|]. split; [lia|]. split; [exact Hy|]. intros k i j Hk Hi Hj. lia. }
    destruct (is_empty y) eqn:Ey.
    { apply empty_iff in Ey. exists t. split; [reflexivity|]. split; [lia|]. split; [exact Ct|]. intros k i j Hk Hi Hj. lia. }
    rewrite Ct, Hy, Nat.eqb_refl. eexists. split; [reflexivity|]. cbn [cr cc ce]. split; [exact RS|]. split; [reflexivity|].
    intros k i j Hk Hi Hj. rewrite app_length in Hk. cbn [List.length] in Hk. destruct (Nat.eq_dec k (List.length l)) as [->|Ek].
    + rewrite before_snoc, before_all, <- Rt by lia. rewrite app_nth2, Nat.sub_diag in * by lia. cbn [nth] in *. replace (Nat.ltb (cr t + i) (cr t)) with false by (symmetry; apply Nat.ltb_ge; lia). f_equal; lia.
    + rewrite before_snoc by lia. rewrite app_nth1 in * by lia. pose proof (before_lt cr l k ltac:(lia)). replace (Nat.ltb (before cr l k + i) (cr t)) with true by (symmetry; apply Nat.ltb_lt; lia). apply Vt; lia.
Qed.
Lemma horzcat_ok2 : forall l n, l <> [] -> (forall x, In x l -> cr x = n) -> exists t, cas_horzcat l = Ok t /\ cr t = n /\ cc t = list_sum (map cc l) /\
  forall k i j, (k < List.length l)%nat -> (i < n)%nat -> (j < cc (nth k l cempty))%nat -> ce t i (before cc l k + j) = ce (nth k l cempty) i j.
Proof.
  induction l as [|y l IH] using rev_ind; intros n Hne H; [congruence|]. rewrite horzcat_snoc. destruct l as [|x0 l0].
  - cbn [cas_horzcat fold_left bind app]. unfold hcat2. cbn [is_empty cempty cr cc Nat.eqb andb]. exists y. split; [reflexivity|]. cbn. split; [apply H; now left|]. split; [lia|].
    intros k i j Hk Hi Hj. assert (k = 0)%nat as -> by lia. reflexivity.
  - assert (cr y = n) as Hy by (apply H; apply in_or_app; right; now left).
    destruct (IH n ltac:(congruence)) as (t & Et & Rt & Ct & Vt); [intros z Hz; apply H; apply in_or_app; now left|]. set (l := x0 :: l0) in *. rewrite Et. cbn [bind].
    assert (cc t + cc y = list_sum (map cc (l ++ [y])))%nat as RS by (rewrite map_app, list_sum_app; cbn [map list_sum fold_right]; lia).
    unfold hcat2. destruct (is_empty t) eqn:Ee.
    { apply empty_iff in Ee. exists y. split; [reflexivity|]. split; [lia|]. split; [lia|]. intros k i j Hk Hi Hj. lia. }
    destruct (is_empty y) eqn:Ey.
    { apply empty_iff in Ey. exists t. split; [reflexivity|]. split; [lia|]. split; [lia|]. intros k i j Hk Hi Hj. lia. }
    rewrite Rt, Hy, Nat.eqb_refl. eexists. split; [reflexivity|]. cbn [cr cc ce]. split; [reflexivity|]. split; [exact RS|].
    intros k i j Hk Hi Hj. rewrite app_length in Hk. cbn [List.length] in Hk. destruct (Nat.eq_dec k (List.length l)) as [->|Ek].
    + rewrite before_snoc, before_all, <- Ct by lia. rewrite app_nth2, Nat.sub_diag in * by lia. cbn [nth] in *. replace (Nat.ltb (cc t + j) (cc t)) with false by (symmetry; apply Nat.ltb_ge; lia). f_equal; lia.
    + rewrite before_snoc by lia. rewrite app_nth1 in * by lia. pose proof (before_lt cc l k ltac:(lia)). replace (Nat.ltb (before cc l k + j) (cc t)) with true by (symmetry; apply Nat.ltb_lt; lia). apply Vt; lia.
Qed.
