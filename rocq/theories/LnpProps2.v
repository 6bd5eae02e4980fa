(** C57 continued: construction, concatenation, splitting, reshaping. *)
From Verif Require Import Base RBase OcpProofs2 CasModel CasSpec CasProps2 LnpModel LnpSpec LnpProofs LnpProofs2.
From Coq Require Import Lra.

(** ** concatenate and vstack/hstack put the blocks one after the other *)
Theorem C57_concatenate : forall l, l <> [] ->
  (forall n, (forall x, In x l -> cc (dm x) = n) -> exists t, lnp_concatenate l 0 = Ok t /\ lnp_vstack l = Ok t /\ cr t = list_sum (map (fun x => cr (dm x)) l) /\ cc t = n /\
    forall k i j, (k < List.length l)%nat -> (i < cr (dm (nth k l (Vec []))))%nat -> (j < n)%nat -> ce t (before cr (map dm l) k + i) j = ce (dm (nth k l (Vec []))) i j) /\
  (forall n, (forall x, In x l -> cr (dm x) = n) -> exists t, lnp_concatenate l 1 = Ok t /\ lnp_hstack l = Ok t /\ cr t = n /\ cc t = list_sum (map (fun x => cc (dm x)) l) /\
    forall k i j, (k < List.length l)%nat -> (i < n)%nat -> (j < cc (dm (nth k l (Vec []))))%nat -> ce t i (before cc (map dm l) k + j) = ce (dm (nth k l (Vec []))) i j) /\
  (forall z, z <> 0%Z -> z <> 1%Z -> lnp_concatenate l z = Raise ValueError).
Proof.
  intros l Hne. assert (map dm l <> []) as Hne' by (destruct l; [congruence|discriminate]).
  assert (forall k, (k < List.length l)%nat -> nth k (map dm l) cempty = dm (nth k l (Vec []))) as N.
  { intros k Hk. rewrite (nth_indep _ cempty (dm (Vec []))) by now rewrite map_length. apply map_nth. }
  split; [|split].
  - intros n H. destruct (vertcat_ok (map dm l) n Hne') as (t & E & R1 & C1 & V). { intros x Hx. apply in_map_iff in Hx. destruct Hx as (y & <- & Hy). now apply H. }
    exists t. split; [exact E|]. split; [exact E|]. rewrite map_map in R1. split; [exact R1|]. split; [exact C1|]. intros k i j Hk Hi Hj. rewrite <- (N k Hk) in Hi |- *. apply V; [now rewrite map_length|exact Hi|exact Hj].
  - intros n H. destruct (horzcat_ok2 (map dm l) n Hne') as (t & E & R1 & C1 & V). { intros x Hx. apply in_map_iff in Hx. destruct Hx as (y & <- & Hy). now apply H. }
    exists t. split; [exact E|]. split; [exact E|]. rewrite map_map in C1. split; [exact R1|]. split; [exact C1|]. intros k i j Hk Hi Hj. rewrite <- (N k Hk) in Hj |- *. apply V; [now rewrite map_length|exact Hi|exact Hj].
  - intros z H0 H1. unfold lnp_concatenate. destruct (Z.eqb_spec z 0), (Z.eqb_spec z 1); try congruence.
Qed.
Print Assumptions C57_concatenate.
Theorem C57_concatenate_rejects : forall l x y, In x l -> In y l -> ~ (cr (dm x) = 0 /\ cc (dm x) = 0)%nat -> ~ (cr (dm y) = 0 /\ cc (dm y) = 0)%nat ->
  (cc (dm x) <> cc (dm y) -> lnp_concatenate l 0 = Raise RuntimeError /\ lnp_vstack l = Raise RuntimeError) /\ (cr (dm x) <> cr (dm y) -> lnp_concatenate l 1 = Raise RuntimeError /\ lnp_hstack l = Raise RuntimeError).
Proof.
  intros l x y Hx Hy Nx Ny. assert (forall z, ~ (cr (dm z) = 0 /\ cc (dm z) = 0)%nat -> is_empty (dm z) = false) as E. { intros z H. destruct (is_empty (dm z)) eqn:F; [|reflexivity]. apply empty_iff in F. contradiction. }
  apply (in_map dm) in Hx, Hy. split; intro H.
  - assert (cas_vertcat (map dm l) = Raise RuntimeError) as K by (apply (vertcat_rejects _ (dm x) (dm y)); auto). split; exact K.
  - assert (cas_horzcat (map dm l) = Raise RuntimeError) as K by (apply (horzcat_rejects _ (dm x) (dm y)); auto). split; exact K.
Qed.
Print Assumptions C57_concatenate_rejects.
(** axis=-1 is refused although numpy takes it; hstack of two vectors of length n is an n x 2 matrix and vstack a column of length 2n
    (numpy: a vector of length 2n and a 2 x n matrix) *)
Theorem C57_stack_refuted : forall l x y n, lnp_concatenate l (-1) = Raise ValueError /\
  (cr x = n -> cc x = 1%nat -> cr y = n -> cc y = 1%nat -> (0 < n)%nat ->
   (exists t, lnp_hstack [CasM x; CasM y] = Ok t /\ cr t = n /\ cc t = 2%nat) /\ (exists t, lnp_vstack [CasM x; CasM y] = Ok t /\ cr t = (2 * n)%nat /\ cc t = 1%nat)).
Proof.
  intros l x y n. split; [reflexivity|]. intros H1 H2 H3 H4 Hn. destruct (C57_concatenate [CasM x; CasM y]) as (V & W & _); [discriminate|]. split.
  - destruct (W n) as (t & _ & E & Rt & Ct & _); [intros z [<-|[<-|[]]]; assumption|]. exists t. split; [exact E|]. split; [exact Rt|]. rewrite Ct. cbn. rewrite H2, H4. reflexivity.
  - destruct (V 1%nat) as (t & _ & E & Rt & Ct & _); [intros z [<-|[<-|[]]]; assumption|]. exists t. split; [exact E|]. split; [|exact Ct]. rewrite Rt. cbn. rewrite H1, H3. lia.
Qed.
Print Assumptions C57_stack_refuted.

(** ** array: a list of scalars is a vector, a list of equally long lists a matrix; CasADi if any element is a symbol, else numpy *)
Theorem C57_array : forall l v, Forall2 scalar_item l v -> exists a, lnp_array l = Ok a /\ (is_cas a = true <-> exists m, In (ISym m) l) /\ is_mat (dm a) (List.length v) 1 (fun i _ => vget i v).
Proof.
  intros l v H. destruct (array_scalars l v H) as (a & E & C & M). exists a. split; [exact E|]. split; [|exact M]. rewrite C, existsb_exists. split.
  - intros (i & Hi & K). destruct i as [r|m|es]; [discriminate|eauto|]. apply (Forall2_In_l _ _ _ _ _ H) in Hi. destruct Hi as (r & _ & [K1|(m & K1 & _)]); discriminate.
  - intros (m & Hm). exists (ISym m). split; [exact Hm|reflexivity].
Qed.
Print Assumptions C57_array.
Theorem C57_array_rows : forall l (m : list (list R)) c, m <> [] -> (0 < c)%nat -> (forall v, In v m -> List.length v = c) ->
  Forall2 (fun i v => exists es, i = ISeq es /\ Forall2 scalar_elem es v) l m ->
  exists a, lnp_array l = Ok a /\ (is_cas a = true <-> exists es s, In (ISeq es) l /\ In (ESym s) es) /\ is_mat (dm a) (List.length m) c (fun i j => vget j (nth i m [])).
Proof.
  intros l m c Hne Hc Hm H. destruct (array_rows l m c Hne Hc Hm H) as (a & E & C & M). exists a. split; [exact E|]. split; [|exact M]. rewrite C, existsb_exists. split.
  - intros (i & Hi & K). destruct (Forall2_In_l _ _ _ _ _ H i Hi) as (v & _ & es & -> & He). cbn [item_cas] in K. apply existsb_exists in K. destruct K as (e & Hin & K). destruct e as [r|s]; [discriminate|]. eauto.
  - intros (es & s & H1 & H2). exists (ISeq es). split; [exact H1|]. cbn [item_cas]. apply existsb_exists. exists (ESym s). split; [exact H2|reflexivity].
Qed.
Print Assumptions C57_array_rows.

(** ** splitting into equal parts, and at indices; putting the parts together again gives the matrix *)
Theorem C57_split_sections : forall x k, (0 < k)%nat ->
  ((0 < cr x)%nat -> (cr x mod k = 0)%nat -> exists ps, lnp_vsplit x (Sections k) = Ok ps /\ lnp_split x (Sections k) 0 = Ok ps /\ List.length ps = k /\
    forall m, (m < k)%nat -> is_mat (nth m ps cempty) (cr x / k) (cc x) (fun i j => ce x (m * (cr x / k) + i) j)) /\
  ((0 < cc x)%nat -> (cc x mod k = 0)%nat -> exists ps, lnp_hsplit x (Sections k) = Ok ps /\ lnp_split x (Sections k) 1 = Ok ps /\ lnp_split x (Sections k) (-1) = Ok ps /\ List.length ps = k /\
    forall m, (m < k)%nat -> is_mat (nth m ps cempty) (cr x) (cc x / k) (fun i j => ce x i (m * (cc x / k) + j))) /\
  ((cr x mod k <> 0)%nat -> lnp_vsplit x (Sections k) = Raise ValueError) /\ ((cc x mod k <> 0)%nat -> lnp_hsplit x (Sections k) = Raise ValueError).
Proof.
  intros x k Hk. split; [|split; [|split]].
  - intros Hr H. destruct (slices_int (cr x) k Hk Hr H) as (ps & E & L & V). exists (map (take_rows x) ps). unfold lnp_vsplit, lnp_split. cbn [Z.eqb]. rewrite E. cbn [fmap]. split; [reflexivity|]. split; [reflexivity|]. rewrite map_length. split; [exact L|].
    intros m Hm. destruct (V m Hm) as [V1 V2]. rewrite (nth_indep _ cempty (take_rows x [])) by (rewrite map_length; lia). rewrite map_nth. split; [exact V1|]. split; [reflexivity|]. intros i j Hi Hj. cbn [take_rows ce]. now rewrite V2.
  - intros Hr H. destruct (slices_int (cc x) k Hk Hr H) as (ps & E & L & V). exists (map (take_cols x) ps). unfold lnp_hsplit, lnp_split. cbn [Z.eqb Pos.eqb orb]. rewrite E. cbn [fmap]. split; [reflexivity|]. split; [reflexivity|]. split; [reflexivity|]. rewrite map_length. split; [exact L|].
    intros m Hm. destruct (V m Hm) as [V1 V2]. rewrite (nth_indep _ cempty (take_cols x [])) by (rewrite map_length; lia). rewrite map_nth. split; [reflexivity|]. split; [exact V1|]. intros i j Hi Hj. cbn [take_cols ce]. now rewrite V2.
  - intro H. unfold lnp_vsplit, lnp_split. cbn [Z.eqb]. unfold split_slices, lnp_split_int. rewrite seq_length. replace (Nat.eqb k 0) with false by (symmetry; apply Nat.eqb_neq; lia). apply Nat.eqb_neq in H. rewrite H. reflexivity.
  - intro H. unfold lnp_hsplit, lnp_split. cbn [Z.eqb Pos.eqb orb]. unfold split_slices, lnp_split_int. rewrite seq_length. replace (Nat.eqb k 0) with false by (symmetry; apply Nat.eqb_neq; lia). apply Nat.eqb_neq in H. rewrite H. reflexivity.
Qed.
Print Assumptions C57_split_sections.
(** 0 <= i1 <= i2 <= ... <= n, as in C40 *)
Theorem C57_split_indices : forall x idx,
  (chain 0 idx (cr x) -> let offs := 0%nat :: idx ++ [cr x] in exists ps, lnp_vsplit x (Indices idx) = Ok ps /\ List.length ps = S (List.length idx) /\
    forall m, (m <= List.length idx)%nat -> is_mat (nth m ps cempty) (nth (S m) offs 0 - nth m offs 0)%nat (cc x) (fun i j => ce x (nth m offs 0%nat + i) j)) /\
  (chain 0 idx (cc x) -> let offs := 0%nat :: idx ++ [cc x] in exists ps, lnp_hsplit x (Indices idx) = Ok ps /\ List.length ps = S (List.length idx) /\
    forall m, (m <= List.length idx)%nat -> is_mat (nth m ps cempty) (cr x) (nth (S m) offs 0 - nth m offs 0)%nat (fun i j => ce x i (nth m offs 0%nat + j))) /\
  (~ chain 0 idx (cr x) -> lnp_vsplit x (Indices idx) = Raise RuntimeError) /\ (~ chain 0 idx (cc x) -> lnp_hsplit x (Indices idx) = Raise RuntimeError).
Proof.
  intros x idx. split; [|split; [|split]].
  - intros H offs. destruct (slices_list (cr x) idx H) as (ps & E & L & V). exists (map (take_rows x) ps). unfold lnp_vsplit, lnp_split. cbn [Z.eqb]. rewrite E. cbn [fmap]. split; [reflexivity|]. rewrite map_length. split; [exact L|].
    intros m Hm. destruct (V m Hm) as [V1 V2]. rewrite (nth_indep _ cempty (take_rows x [])) by (rewrite map_length; lia). rewrite map_nth. split; [exact V1|]. split; [reflexivity|]. intros i j Hi Hj. cbn [take_rows ce]. now rewrite V2.
  - intros H offs. destruct (slices_list (cc x) idx H) as (ps & E & L & V). exists (map (take_cols x) ps). unfold lnp_hsplit, lnp_split. cbn [Z.eqb Pos.eqb orb]. rewrite E. cbn [fmap]. split; [reflexivity|]. rewrite map_length. split; [exact L|].
    intros m Hm. destruct (V m Hm) as [V1 V2]. rewrite (nth_indep _ cempty (take_cols x [])) by (rewrite map_length; lia). rewrite map_nth. split; [reflexivity|]. split; [exact V1|]. intros i j Hi Hj. cbn [take_cols ce]. now rewrite V2.
  - intro H. unfold lnp_vsplit, lnp_split. cbn [Z.eqb]. unfold split_slices. destruct (C40_split_list nat (seq 0 (cr x)) idx) as [_ K]. rewrite seq_length in K. now rewrite (K H).
  - intro H. unfold lnp_hsplit, lnp_split. cbn [Z.eqb Pos.eqb orb]. unfold split_slices. destruct (C40_split_list nat (seq 0 (cc x)) idx) as [_ K]. rewrite seq_length in K. now rewrite (K H).
Qed.
Print Assumptions C57_split_indices.
Theorem C57_split_join : forall x k ps, (0 < k)%nat -> (0 < cr x)%nat -> (cr x mod k = 0)%nat -> lnp_vsplit x (Sections k) = Ok ps -> exists t, lnp_vstack (map CasM ps) = Ok t /\ is_mat t (cr x) (cc x) (ce x).
Proof.
  intros x k ps Hk Hr H E. destruct (C57_split_sections x k Hk) as (K & _). destruct (K Hr H) as (qs & Eq & _ & L & V). assert (ps = qs) as -> by congruence. set (q := (cr x / k)%nat) in *.
  assert (cr x = k * q)%nat as Eq' by (pose proof (Nat.div_mod (cr x) k); subst q; lia).
  assert (map dm (map CasM qs) = qs) as MM by (rewrite map_map; apply map_id).
  destruct (C57_concatenate (map CasM qs)) as (W & _ & _); [destruct qs; [cbn in L; lia|discriminate]|].
  assert (forall y, In y qs -> cr y = q /\ cc y = cc x) as Q. { intros y Hy. apply (In_nth _ _ cempty) in Hy. destruct Hy as (m & Hm & <-). rewrite L in Hm. destruct (V m Hm) as (A & B & _). auto. }
  destruct (W (cc x)) as (t & _ & Et & Rt & Ct & Vt). { intros y Hy. apply in_map_iff in Hy. destruct Hy as (z & <- & Hz). apply (Q z Hz). }
  exists t. split; [exact Et|].
  assert (forall (size : cmat -> nat) l c, (forall y, In y l -> size y = c) -> list_sum (map size l) = (List.length l * c)%nat) as LS.
  { intros size l c. induction l as [|y l IH]; intro HH; [reflexivity|]. change (size y + list_sum (map size l) = S (List.length l) * c)%nat. rewrite IH by (intros; apply HH; now right). rewrite (HH y (or_introl eq_refl)). lia. }
  split.
  - rewrite Rt, map_map. cbn [dm]. rewrite (LS (fun z => cr z) qs q) by (intros; now apply Q). lia.
  - split; [exact Ct|]. intros i j Hi Hj. assert (0 < q)%nat by (destruct q; lia). specialize (Vt (i / q)%nat (i mod q)%nat j). rewrite map_length, MM, L in Vt. assert (i / q < k)%nat as Hm by (apply Nat.div_lt_upper_bound; lia).
    assert (dm (nth (i / q) (map CasM qs) (Vec [])) = nth (i / q) qs cempty) as N. { rewrite (nth_indep _ (Vec []) (CasM cempty)) by (rewrite map_length; lia). now rewrite map_nth. }
    rewrite N in Vt. destruct (V (i / q)%nat Hm) as (A & B & C). unfold before in Vt. rewrite (LS cr _ q), firstn_length, L in Vt by (intros y Hy; apply Q; rewrite <- (firstn_skipn (i / q) qs); apply in_or_app; now left).
    rewrite Nat.min_l in Vt by lia. pose proof (Nat.div_mod i q ltac:(lia)) as DM. pose proof (Nat.mod_upper_bound i q ltac:(lia)) as MB. replace (i / q * q + i mod q)%nat with i in Vt by lia. rewrite Vt; [|exact Hm|lia|exact Hj]. rewrite C by lia. f_equal. lia.
Qed.
Print Assumptions C57_split_join.
(** indices given as a tuple reach CasADi unchanged; a column vector cannot be split by hsplit (numpy splits a vector along its only axis); axis=-2 is an UnboundLocalError *)
Theorem C57_split_refuted : forall x,
  (forall i r, (0 < i)%nat -> lnp_vsplit x (Tuple (i :: r)) = Raise RuntimeError) /\ (forall k, cc x = 1%nat -> (2 <= k)%nat -> lnp_hsplit x (Sections k) = Raise ValueError) /\ (forall idx, lnp_split x (Indices idx) (-2) = Raise NameError).
Proof.
  intro x. split; [|split].
  - intros [|i] r H; [lia|]. reflexivity.
  - intros k H Hk. destruct (C57_split_sections x k ltac:(lia)) as (_ & _ & _ & K). apply K. rewrite H, Nat.mod_small by lia. lia.
  - reflexivity.
Qed.
Print Assumptions C57_split_refuted.

(** ** shapes *)
Theorem C57_length : forall x n, (cr x = n /\ cc x = 1%nat) \/ (cr x = 1%nat /\ cc x = n) -> lnp_length x = n.
Proof. intros x n H. unfold lnp_length. destruct (Nat.eqb_spec (cr x) 1); cbn [negb]; lia. Qed.
Print Assumptions C57_length.
Theorem C57_diag : forall x n,
  (cr x = n /\ cc x = 1%nat -> exists t, lnp_diag x 0 = Ok t /\ is_mat t n n (fun i j => if Nat.eqb i j then ce x i 0 else 0)) /\
  (cr x = 1%nat /\ cc x = n -> exists t, lnp_diag x 0 = Ok t /\ is_mat t n n (fun i j => if Nat.eqb i j then ce x 0 i else 0)) /\
  (forall k, k <> 0%Z -> lnp_diag x k = Raise NotImplementedError) /\ (cr x = n -> cc x = n -> n <> 1%nat -> lnp_diag x 0 = Raise NotImplementedError) /\
  (cr x <> cc x -> cr x <> 1%nat -> cc x <> 1%nat -> lnp_diag x 0 = Raise ValueError).
Proof.
  intros x n. unfold lnp_diag. cbn [Z.eqb negb]. repeat split.
  - intros [H1 H2]. rewrite H2. cbn [Nat.eqb]. rewrite orb_true_r. eexists. split; [reflexivity|]. unfold cdiag, is_mat. cbn [cr cc ce]. rewrite H2. cbn [Nat.eqb]. auto.
  - intros [H1 H2]. rewrite H1. cbn [Nat.eqb orb]. eexists. split; [reflexivity|]. unfold cdiag, is_mat. cbn [cr cc ce]. rewrite H1, H2. destruct (Nat.eqb_spec n 1) as [->|Hn]; auto. repeat split; auto. intros i j Hi Hj. assert (i = 0)%nat as -> by lia. reflexivity.
  - intros k Hk. apply Z.eqb_neq in Hk. rewrite Hk. reflexivity.
  - intros H1 H2 Hn. rewrite H1, H2, Nat.eqb_refl. apply Nat.eqb_neq in Hn. rewrite Hn. reflexivity.
  - intros H1 H2 H3. apply Nat.eqb_neq in H1, H2, H3. rewrite H1, H2, H3. reflexivity.
Qed.
Print Assumptions C57_diag.
(** reshape keeps the entries in CasADi's column-major order; shapes of another size are refused *)
Theorem C57_reshape : forall x r c,
  ((r * c = cr x * cc x)%nat -> exists t, lnp_reshape x r c = Ok t /\ cr t = r /\ cc t = c /\
     forall i j i' j', (i < r)%nat -> (j < c)%nat -> (i' < cr x)%nat -> (j' < cc x)%nat -> (i + j * r = i' + j' * cr x)%nat -> ce t i j = ce x i' j') /\
  ((r * c <> cr x * cc x)%nat -> lnp_reshape x r c = Raise RuntimeError).
Proof.
  intros x r c. split; intro H.
  - unfold lnp_reshape. rewrite H, Nat.eqb_refl. eexists. split; [reflexivity|]. split; [reflexivity|]. split; [reflexivity|]. intros i j i' j' Hi Hj Hi' Hj' E. cbn [ce]. rewrite E. f_equal.
    + rewrite Nat.mod_add by lia. apply Nat.mod_small. exact Hi'.
    + rewrite Nat.div_add by lia. rewrite Nat.div_small by exact Hi'. lia.
  - unfold lnp_reshape. apply Nat.eqb_neq in H. now rewrite H.
Qed.
Print Assumptions C57_reshape.
(** numpy reshapes in row-major order: [[a, b], [c, d]] to 4 x 1 is a, b, c, d *)
Theorem C57_reshape_refuted : forall x, cr x = 2%nat -> cc x = 2%nat -> ce x 0 1 <> ce x 1 0 -> exists t, lnp_reshape x 4 1 = Ok t /\ ce t 1 0 = ce x 1 0 /\ ce t 1 0 <> ce x 0 1.
Proof.
  intros x H1 H2 H. unfold lnp_reshape. rewrite H1, H2. cbn [Nat.mul Nat.add Nat.eqb]. eexists. split; [reflexivity|]. cbn. split; [reflexivity|]. congruence.
Qed.
Print Assumptions C57_reshape_refuted.
(** eye is neutral for @, zeros for +, ones for * *)
Theorem C57_neutral : forall x,
  (exists t, mtimes (lnp_eye (cr x)) x = Ok t /\ is_mat t (cr x) (cc x) (ce x)) /\ (exists t, lnp_add (CasM x) (CasM (lnp_zeros_like x)) = Ok t /\ is_mat t (cr x) (cc x) (ce x)) /\
  (exists t, lnp_add (CasM x) (CasM (lnp_zeros (cr x) (cc x))) = Ok t /\ is_mat t (cr x) (cc x) (ce x)) /\ (exists t, cbin Rmult x (lnp_ones (cr x) (cc x)) = Ok t /\ is_mat t (cr x) (cc x) (ce x)).
Proof.
  intro x. split; [|split; [|split]].
  - unfold mtimes. destruct (is_scalar (lnp_eye (cr x)) || is_scalar x)%bool eqn:S.
    + assert (cr x = 1)%nat as E. { apply orb_prop in S. rewrite !scalar_iff in S. unfold one in S. cbn [lnp_eye cr cc] in S. lia. }
      destruct (cbin_agree Rmult (lnp_eye (cr x)) x) as (t & Et & B1 & B2 & B3). { left. rewrite E. split; reflexivity. }
      exists t. split; [exact Et|]. unfold bdim in *. cbn [lnp_eye cr cc] in *. split; [lia|]. split; [lia|]. intros i j Hi Hj. rewrite B3 by lia. unfold bentry. cbn [lnp_eye cr cc ce]. rewrite E. cbn [Nat.eqb]. rewrite Rmult_1_l. assert (i = 0)%nat as -> by lia.
      destruct (Nat.eqb_spec (cc x) 1); f_equal; lia.
    + cbn [lnp_eye cr cc]. rewrite Nat.eqb_refl. eexists. split; [reflexivity|]. split; [reflexivity|]. split; [reflexivity|]. intros i j Hi Hj. change (rsum (map (fun k => (if Nat.eqb i k then 1 else 0) * ce x k j) (seq 0 (cr x))) = ce x i j).
      rewrite (rsum_single_in (fun k => (if Nat.eqb i k then 1 else 0) * ce x k j) i) by first [exact Hi | intros k Hk Hne; destruct (Nat.eqb_spec i k); [congruence|ring]]. rewrite Nat.eqb_refl. ring.
  - destruct (cbin_same Rplus x (lnp_zeros_like x) (cr x) (cc x)) as (t & E & A & B & C); try reflexivity. exists t. split; [exact E|]. split; [exact A|]. split; [exact B|]. intros i j Hi Hj. rewrite C by assumption. cbn. ring.
  - destruct (cbin_same Rplus x (lnp_zeros (cr x) (cc x)) (cr x) (cc x)) as (t & E & A & B & C); try reflexivity. exists t. split; [exact E|]. split; [exact A|]. split; [exact B|]. intros i j Hi Hj. rewrite C by assumption. cbn. ring.
  - destruct (cbin_same Rmult x (lnp_ones (cr x) (cc x)) (cr x) (cc x)) as (t & E & A & B & C); try reflexivity. exists t. split; [exact E|]. split; [exact A|]. split; [exact B|]. intros i j Hi Hj. rewrite C by assumption. cbn. ring.
Qed.
Print Assumptions C57_neutral.
