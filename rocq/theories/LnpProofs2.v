From Verif Require Import Base RBase OcpProofs2 CasModel CasSpec CasProps2 LnpModel LnpSpec LnpProofs.
From Coq Require Import Lra.

(** ** vertcat and horzcat of blocks that do not fit *)
Lemma vcat_width : forall l t, cas_vertcat l = Ok t -> forall x, In x l -> is_empty x = false -> cc x = cc t.
Proof.
  induction l as [|y l IH] using rev_ind; intros t E x Hx Hn; [destruct Hx|]. rewrite vertcat_snoc in E. destruct (cas_vertcat l) as [u|e] eqn:Eu; [|discriminate]. cbn [bind] in E. unfold vcat2 in E.
  assert (forall A (p q : A), Ok p = Ok q -> p = q) as OI by (intros A p q K; now injection K). apply in_app_or in Hx.
  destruct (is_empty u) eqn:Fu.
  { apply OI in E. subst t. destruct Hx as [Hx|[->|[]]]; [|reflexivity]. specialize (IH u eq_refl x Hx Hn). exfalso. apply empty_iff in Fu. destruct l as [|z l]; [destruct Hx|].
    assert (forall m v, cas_vertcat m = Ok v -> forall w, In w m -> is_empty w = false -> is_empty v = false) as K.
    { clear. induction m as [|y m IH] using rev_ind; intros v E w Hw Hn; [destruct Hw|]. rewrite vertcat_snoc in E. destruct (cas_vertcat m) as [u|e] eqn:Eu; [|discriminate]. cbn [bind] in E. unfold vcat2 in E. apply in_app_or in Hw.
      destruct (is_empty u) eqn:Fu. { injection E as <-. destruct Hw as [Hw|[->|[]]]; [|exact Hn]. specialize (IH u eq_refl w Hw Hn). congruence. }
      destruct (is_empty y) eqn:Fy. { injection E as <-. exact Fu. }
      destruct (Nat.eqb (cc u) (cc y)) eqn:C; [|discriminate]. injection E as <-. unfold is_empty. cbn [cr cc]. unfold is_empty in Fu. destruct (Nat.eqb_spec (cc u) 0); [|now rewrite andb_false_r].
      rewrite andb_true_r in *. apply Nat.eqb_neq in Fu. apply Nat.eqb_neq. lia. }
    specialize (K _ _ Eu x Hx Hn). unfold is_empty in K. destruct Fu as [F1 F2]. rewrite F1, F2 in K. discriminate. }
  destruct (is_empty y) eqn:Fy. { apply OI in E. subst t. destruct Hx as [Hx|[->|[]]]; [now apply IH|congruence]. }
  destruct (Nat.eqb_spec (cc u) (cc y)) as [C|C]; [|discriminate]. apply OI in E. subst t. cbn [cc]. destruct Hx as [Hx|[->|[]]]; [now apply IH|now symmetry].
Qed.
Lemma vcat_errors : forall l e, cas_vertcat l = Raise e -> e = RuntimeError.
Proof.
  induction l as [|y l IH] using rev_ind; intros e E; [discriminate|]. rewrite vertcat_snoc in E. destruct (cas_vertcat l) as [u|e'] eqn:Eu; cbn [bind] in E.
  - unfold vcat2 in E. destruct (is_empty u), (is_empty y), (Nat.eqb (cc u) (cc y)); try discriminate; now injection E.
  - injection E as <-. now apply IH.
Qed.
Lemma vcat_T : forall x y, hcat2 x y = fmap ctrans (vcat2 (ctrans x) (ctrans y)).
Proof.
  intros [xr xc xe] [yr yc ye]. unfold hcat2, vcat2, ctrans, is_empty. cbn [cr cc ce]. rewrite (andb_comm (Nat.eqb xc 0)), (andb_comm (Nat.eqb yc 0)).
  destruct (Nat.eqb xr 0 && Nat.eqb xc 0)%bool; [reflexivity|]. destruct (Nat.eqb yr 0 && Nat.eqb yc 0)%bool; [reflexivity|]. destruct (Nat.eqb xr yr); reflexivity.
Qed.
Lemma hcat_T : forall l, cas_horzcat l = fmap ctrans (cas_vertcat (map ctrans l)).
Proof.
  induction l as [|y l IH] using rev_ind; [reflexivity|]. rewrite horzcat_snoc, map_app. cbn [map]. rewrite vertcat_snoc, IH. destruct (cas_vertcat (map ctrans l)) as [u|e]; [|reflexivity]. cbn [fmap bind]. rewrite vcat_T. destruct u; reflexivity.
Qed.
Lemma vertcat_rejects : forall l x y, In x l -> In y l -> is_empty x = false -> is_empty y = false -> cc x <> cc y -> cas_vertcat l = Raise RuntimeError.
Proof.
  intros l x y Hx Hy Nx Ny H. destruct (cas_vertcat l) as [t|e] eqn:E; [|now rewrite (vcat_errors l e E)]. exfalso. apply H. rewrite (vcat_width l t E x Hx Nx), (vcat_width l t E y Hy Ny). reflexivity.
Qed.
Lemma horzcat_rejects : forall l x y, In x l -> In y l -> is_empty x = false -> is_empty y = false -> cr x <> cr y -> cas_horzcat l = Raise RuntimeError.
Proof.
  intros l x y Hx Hy Nx Ny H. rewrite hcat_T. rewrite (vertcat_rejects (map ctrans l) (ctrans x) (ctrans y)); [reflexivity|now apply in_map|now apply in_map| | |exact H].
  - unfold is_empty, ctrans. cbn [cr cc]. rewrite andb_comm. exact Nx.
  - unfold is_empty, ctrans. cbn [cr cc]. rewrite andb_comm. exact Ny.
Qed.

(** ** blocks of size one *)
Lemma sum_ones : forall size (l : list cmat), (forall x, In x l -> size x = 1%nat) -> list_sum (map size l) = List.length l.
Proof. intros size. induction l as [|x l IH]; intro H; [reflexivity|]. cbn. rewrite (H x (or_introl eq_refl)). change (fold_right Nat.add 0%nat (map size l)) with (list_sum (map size l)). rewrite IH; [reflexivity|]. intros; apply H; now right. Qed.
Lemma before_ones : forall size (l : list cmat) k, (forall x, In x l -> size x = 1%nat) -> (k <= List.length l)%nat -> before size l k = k.
Proof. intros size l k H Hk. unfold before. rewrite sum_ones; [rewrite firstn_length; lia|]. intros x Hx. apply H. rewrite <- (firstn_skipn k l). apply in_or_app. now left. Qed.

(** ** array *)
Lemma Forall2_In_l : forall A B (P : A -> B -> Prop) l m, Forall2 P l m -> forall x, In x l -> exists y, In y m /\ P x y.
Proof. intros A B P l m H. induction H as [|x y l m Hxy H IH]; intros z Hz; [destruct Hz|]. destruct Hz as [<-|Hz]; [exists y; split; [now left|exact Hxy]|]. destruct (IH z Hz) as (w & Hw & K). exists w. split; [now right|exact K]. Qed.
Lemma Forall2_len : forall A B (P : A -> B -> Prop) l m, Forall2 P l m -> List.length l = List.length m.
Proof. intros A B P l m H. induction H; [reflexivity|]. cbn. congruence. Qed.
Lemma Forall2_nth : forall A B (P : A -> B -> Prop) l m, Forall2 P l m -> forall k a b, (k < List.length l)%nat -> P (nth k l a) (nth k m b).
Proof. intros A B P l m H. induction H as [|x y l m Hxy H IH]; intros k a b Hk; [cbn in Hk; lia|]. destruct k; [exact Hxy|]. cbn. apply IH. cbn in Hk. lia. Qed.
Lemma nums_ok : forall l v, Forall2 scalar_item l v -> existsb item_cas l = false -> nums l = Some v.
Proof.
  intros l v H. induction H as [|i r l v Hi H IH]; intro E; [reflexivity|]. cbn [existsb] in E. apply orb_false_iff in E. destruct E as [E1 E2]. destruct Hi as [->|(m & -> & _)]; [|discriminate]. cbn [nums]. now rewrite IH.
Qed.
Lemma enums_ok : forall l v, Forall2 scalar_elem l v -> existsb elem_cas l = false -> enums l = Some v.
Proof.
  intros l v H. induction H as [|i r l v Hi H IH]; intro E; [reflexivity|]. cbn [existsb] in E. apply orb_false_iff in E. destruct E as [E1 E2]. destruct Hi as [->|(m & -> & _)]; [|discriminate]. cbn [enums]. now rewrite IH.
Qed.
Lemma rows_scalars : forall l v, Forall2 scalar_item l v -> exists ms, mapM make_row l = Ok ms /\ List.length ms = List.length v /\ (forall m, In m ms -> one m) /\ forall k, (k < List.length v)%nat -> ce (nth k ms cempty) 0 0 = vget k v.
Proof.
  intros l v H. induction H as [|i r l v Hi H IH].
  - exists []. repeat split; intros; cbn in *; try lia; contradiction.
  - destruct IH as (ms & E & L & O & V). assert (exists m, make_row i = Ok m /\ one m /\ ce m 0 0 = r) as (m & Em & Om & Vm).
    { destruct Hi as [->|(m & -> & Om & Vm)]; [exists (cscalar r)|exists m]; repeat split; auto; apply Om. }
    exists (m :: ms). cbn [mapM]. rewrite Em. cbn [bind]. rewrite E. cbn [bind]. split; [reflexivity|]. cbn [List.length]. split; [congruence|]. split.
    + intros z [<-|Hz]; auto.
    + intros [|k] Hk; [exact Vm|]. cbn. apply V. lia.
Qed.
Lemma vertcat_ones : forall ms, ms <> [] -> (forall m, In m ms -> one m) -> exists t, cas_vertcat ms = Ok t /\ is_mat t (List.length ms) 1 (fun i _ => ce (nth i ms cempty) 0 0).
Proof.
  intros ms Hne O. destruct (vertcat_ok ms 1 Hne) as (t & E & R1 & C1 & V); [intros x Hx; apply (O x Hx)|]. exists t. split; [exact E|]. rewrite sum_ones in R1 by (intros x Hx; apply (O x Hx)).
  split; [exact R1|]. split; [exact C1|]. intros i j Hi Hj. assert (j = 0)%nat as -> by lia. specialize (V i 0%nat 0%nat Hi). rewrite before_ones in V by (try lia; intros x Hx; apply (O x Hx)). rewrite Nat.add_0_r in V. apply V; [|lia].
  destruct (O (nth i ms cempty)) as [-> _]; [now apply nth_In|lia].
Qed.
Lemma array_scalars : forall l v, Forall2 scalar_item l v -> exists a, lnp_array l = Ok a /\ is_cas a = existsb item_cas l /\ is_mat (dm a) (List.length v) 1 (fun i _ => vget i v).
Proof.
  intros l v H. unfold lnp_array. destruct (existsb item_cas l) eqn:E.
  - destruct (rows_scalars l v H) as (ms & Em & L & O & V). rewrite Em. cbn [bind]. assert (ms <> []) as Hne. { intros ->. destruct v; [|discriminate]. inversion H; subst. discriminate. }
    destruct (vertcat_ones ms Hne O) as (t & Et & R1 & C1 & W). rewrite Et. cbn [fmap]. eexists. split; [reflexivity|]. split; [reflexivity|]. cbn [dm]. rewrite <- L. split; [exact R1|]. split; [exact C1|].
    intros i j Hi Hj. rewrite W by assumption. apply V. lia.
  - unfold np_array. rewrite (nums_ok l v H E). eexists. split; [reflexivity|]. split; [reflexivity|]. cbn [dm]. unfold is_mat, column. cbn. auto.
Qed.
Lemma array_rows : forall l (m : list (list R)) c, m <> [] -> (0 < c)%nat -> (forall v, In v m -> List.length v = c) ->
  Forall2 (fun i v => exists es, i = ISeq es /\ Forall2 scalar_elem es v) l m ->
  exists a, lnp_array l = Ok a /\ is_cas a = existsb item_cas l /\ is_mat (dm a) (List.length m) c (fun i j => vget j (nth i m [])).
Proof.
  intros l m c Hne Hc Hm H. unfold lnp_array. destruct (existsb item_cas l) eqn:E.
  - assert (exists ms, mapM make_row l = Ok ms /\ List.length ms = List.length m /\ (forall x, In x ms -> cr x = 1%nat /\ cc x = c) /\ forall k j, (k < List.length m)%nat -> (j < c)%nat -> ce (nth k ms cempty) 0 j = vget j (nth k m [])) as (ms & Em & L & O & V).
    { clear E Hne. induction H as [|i v l m (es & -> & He) H IH]; [exists []; repeat split; intros; cbn in *; try lia; contradiction|].
      destruct IH as (ms & E & L & O & V); [intros; apply Hm; now right|].
      assert (exists t, cas_horzcat (map elem_dm es) = Ok t /\ cr t = 1%nat /\ cc t = c /\ forall j, (j < c)%nat -> ce t 0 j = vget j v) as (t & Et & Rt & Ct & Vt).
      { assert (forall x, In x (map elem_dm es) -> one x) as O1. { intros x Hx. apply in_map_iff in Hx. destruct Hx as (e & <- & Hin). apply (Forall2_In_l _ _ _ _ _ He e) in Hin. destruct Hin as (r & _ & [->|(q & -> & Oq & _)]); [split; reflexivity|exact Oq]. }
        assert (List.length es = c) as Le by (rewrite <- (Hm v (or_introl eq_refl)); exact (Forall2_len _ _ _ _ _ He)).
        destruct (horzcat_ok2 (map elem_dm es) 1) as (t & Et & Rt & Ct & Vt); [destruct es; [cbn in Le; lia|discriminate]|intros x Hx; apply (O1 x Hx)|].
        exists t. split; [exact Et|]. split; [exact Rt|]. rewrite sum_ones, map_length in Ct by (intros x Hx; apply (O1 x Hx)). split; [congruence|]. intros j Hj. specialize (Vt j 0%nat 0%nat). rewrite map_length in Vt.
        rewrite before_ones, Nat.add_0_r in Vt by (try (rewrite map_length; lia); intros x Hx; apply (O1 x Hx)). assert (j < List.length es)%nat as Hj' by lia. assert (In (nth j (map elem_dm es) cempty) (map elem_dm es)) as Hin by (apply nth_In; now rewrite map_length).
        rewrite Vt; [|exact Hj'|lia|destruct (O1 _ Hin) as [_ ->]; lia]. rewrite (nth_indep _ cempty (elem_dm (ENum 0))) by now rewrite map_length. rewrite map_nth. unfold vget. pose proof (Forall2_nth _ _ _ _ _ He j (ENum 0) 0 Hj') as [->|(q & -> & _ & <-)]; reflexivity. }
      exists (t :: ms). cbn [mapM make_row]. rewrite Et. cbn [bind]. rewrite E. cbn [bind]. split; [reflexivity|]. cbn [List.length]. split; [congruence|]. split.
      - intros x [<-|Hx]; auto.
      - intros [|k] j Hk Hj; [now apply Vt|]. cbn. apply V; lia. }
    rewrite Em. cbn [bind]. destruct (vertcat_ok ms c) as (t & Et & Rt & Ct & Vt); [intros ->; destruct m; [congruence|discriminate]|intros x Hx; apply (O x Hx)|].
    rewrite Et. cbn [fmap]. eexists. split; [reflexivity|]. split; [reflexivity|]. cbn [dm]. rewrite sum_ones in Rt by (intros x Hx; apply (O x Hx)). split; [congruence|]. split; [exact Ct|].
    intros i j Hi Hj. specialize (Vt i 0%nat j). rewrite before_ones, Nat.add_0_r in Vt by (try lia; intros x Hx; apply (O x Hx)). rewrite Vt; [now apply V|lia| |exact Hj].
    destruct (O (nth i ms cempty)) as [-> _]; [apply nth_In; lia|lia].
  - assert (rows l = Some m) as Er. { clear Hne Hm. induction H as [|i v l m (es & -> & He) H IH]; [reflexivity|]. cbn [existsb item_cas] in E. apply orb_false_iff in E. destruct E as [E1 E2]. cbn [rows]. rewrite (enums_ok es v He E1), (IH E2). reflexivity. }
    assert (nums l = None) as En. { destruct H as [|i v l m (es & -> & He) H]; [congruence|]. reflexivity. }
    unfold np_array. rewrite En, Er. destruct m as [|v m]; [congruence|].
    replace (forallb (fun w => Nat.eqb (List.length w) (List.length v)) (v :: m)) with true.
    2:{ symmetry. apply forallb_forall. intros w Hw. apply Nat.eqb_eq. rewrite (Hm w Hw), (Hm v (or_introl eq_refl)). reflexivity. }
    eexists. split; [reflexivity|]. split; [reflexivity|]. cbn [dm]. unfold is_mat. cbn [cr cc ce]. split; [reflexivity|]. split; [apply Hm; now left|]. reflexivity.
Qed.

(** ** the entries in column-major order *)
Lemma entries_seq : forall x, entries x = map (fun k => ce x (k mod cr x) (k / cr x)) (seq 0 (cr x * cc x)).
Proof.
  intro x. unfold entries. generalize (cc x) as c. induction c as [|c IH]; [now rewrite Nat.mul_0_r|]. rewrite seq_S, flat_map_app, IH. cbn [flat_map plus]. rewrite app_nil_r.
  replace (cr x * S c)%nat with (cr x * c + cr x)%nat by lia. rewrite seq_app, map_app. f_equal. cbn [plus].
  replace (seq (cr x * c) (cr x)) with (map (fun i => cr x * c + i)%nat (seq 0 (cr x))).
  2:{ generalize (cr x * c)%nat as o. generalize (cr x) as n. clear. induction n as [|n IH]; intro o; [reflexivity|]. cbn [seq map]. rewrite Nat.add_0_r. f_equal. rewrite <- seq_shift, map_map. specialize (IH (S o)). rewrite <- IH. apply map_ext. intro; lia. }
  rewrite map_map. apply map_ext_in. intros i Hi. apply in_seq in Hi. f_equal.
  - rewrite Nat.add_comm, Nat.mul_comm, Nat.mod_add by lia. symmetry. apply Nat.mod_small. lia.
  - rewrite Nat.add_comm, Nat.mul_comm, Nat.div_add by lia. rewrite Nat.div_small by lia. lia.
Qed.
Lemma reshape_ok : forall x r c, (r * c = cr x * cc x)%nat -> exists t, lnp_reshape x r c = Ok t /\ cr t = r /\ cc t = c /\ entries t = entries x.
Proof.
  intros x r c H. unfold lnp_reshape. rewrite H, Nat.eqb_refl. eexists. split; [reflexivity|]. split; [reflexivity|]. split; [reflexivity|]. rewrite !entries_seq. cbn [cr cc ce]. rewrite H. apply map_ext_in. intros k Hk. apply in_seq in Hk.
  assert (0 < r)%nat by (destruct r; lia). pose proof (Nat.div_mod k r). replace (k mod r + k / r * r)%nat with k by lia. reflexivity.
Qed.

(** ** splitting *)
Lemma nth_concat_uniform : forall (ps : list (list nat)) q m i, (forall p, In p ps -> List.length p = q) -> (m < List.length ps)%nat -> (i < q)%nat -> nth i (nth m ps []) 0%nat = nth (m * q + i) (concat ps) 0%nat.
Proof.
  induction ps as [|p ps IH]; intros q m i H Hm Hi; [cbn in Hm; lia|]. cbn [concat]. destruct m as [|m].
  - cbn. rewrite app_nth1; [reflexivity|]. rewrite (H p (or_introl eq_refl)). exact Hi.
  - cbn [nth]. rewrite (IH q m i); [|intros; apply H; now right|cbn in Hm; lia|exact Hi]. rewrite app_nth2 by (rewrite (H p (or_introl eq_refl)); lia). rewrite (H p (or_introl eq_refl)). f_equal. lia.
Qed.
Lemma slices_int : forall n k, (0 < k)%nat -> (0 < n)%nat -> (n mod k = 0)%nat -> exists ps, split_slices (seq 0 n) (Sections k) = Ok ps /\ List.length ps = k /\
  forall m, (m < k)%nat -> List.length (nth m ps []) = (n / k)%nat /\ forall i, (i < n / k)%nat -> nth i (nth m ps []) 0%nat = (m * (n / k) + i)%nat.
Proof.
  intros n k Hk Hn H. destruct (C40_split_int nat (seq 0 n) k Hk) as [K _]; [destruct n; [lia|discriminate]|]. rewrite seq_length in K. destruct (K H) as (ps & E & L & C & U). exists ps. split; [exact E|]. split; [exact L|].
  intros m Hm. split; [apply U, nth_In; lia|]. intros i Hi. rewrite (nth_concat_uniform ps (n / k) m i U) by lia. rewrite C, seq_nth; [lia|]. pose proof (Nat.div_mod n k). nia.
Qed.
Lemma slices_list : forall n idx, chain 0 idx n -> let offs := 0%nat :: idx ++ [n] in exists ps, split_slices (seq 0 n) (Indices idx) = Ok ps /\ List.length ps = S (List.length idx) /\
  forall m, (m <= List.length idx)%nat -> List.length (nth m ps []) = (nth (S m) offs 0 - nth m offs 0)%nat /\ forall i, (i < nth (S m) offs 0 - nth m offs 0)%nat -> nth i (nth m ps []) 0%nat = (nth m offs 0 + i)%nat.
Proof.
  intros n idx H offs. destruct (C40_split_list nat (seq 0 n) idx) as [K _]. rewrite seq_length in K. exists (np_split (seq 0 n) idx). split; [exact (K H)|]. subst offs. unfold np_split. clear K.
  enough (forall idx a, chain a idx n -> List.length (np_split_from (seq 0 n) a idx) = S (List.length idx) /\
    forall m, (m <= List.length idx)%nat -> List.length (nth m (np_split_from (seq 0 n) a idx) []) = (nth (S m) (a :: idx ++ [n]) 0 - nth m (a :: idx ++ [n]) 0)%nat /\
    forall i, (i < nth (S m) (a :: idx ++ [n]) 0 - nth m (a :: idx ++ [n]) 0)%nat -> nth i (nth m (np_split_from (seq 0 n) a idx) []) 0%nat = (nth m (a :: idx ++ [n]) 0 + i)%nat) as G by now apply G.
  clear H idx.
  assert (forall a b, (a <= b)%nat -> (b <= n)%nat -> List.length (slice (seq 0 n) a b) = (b - a)%nat /\ forall i, (i < b - a)%nat -> nth i (slice (seq 0 n) a b) 0%nat = (a + i)%nat) as SL.
  { intros a b Hab Hb. unfold slice. split; [rewrite firstn_length, skipn_length, seq_length; lia|]. intros i Hi. assert (skipn a (seq 0 n) = seq a (n - a)) as ->.
    { replace n with (a + (n - a))%nat at 1 by lia. rewrite seq_app, skipn_app, seq_length, Nat.sub_diag. rewrite skipn_all2 by now rewrite seq_length. reflexivity. }
    replace (n - a)%nat with (b - a + (n - b))%nat by lia. rewrite seq_app, firstn_app, seq_length, Nat.sub_diag. cbn [firstn]. rewrite app_nil_r, firstn_all2 by now rewrite seq_length. now rewrite seq_nth. }
  assert (forall idx a, chain a idx n -> (a <= n)%nat) as CL. { induction idx as [|b r IH]; intros a H; cbn in H; [exact H|]. destruct H as [H1 H2]. apply IH in H2. lia. }
  induction idx as [|b r IH]; intros a H.
  - cbn in H. cbn [np_split_from app]. split; [reflexivity|]. intros m Hm. assert (m = 0)%nat as -> by (cbn in Hm; lia). cbn [nth]. rewrite seq_length. now apply SL.
  - cbn in H. destruct H as [H1 H2]. pose proof (CL r b H2) as Hbn. destruct (IH b H2) as [L V]. cbn [np_split_from app]. split; [cbn [List.length]; now rewrite L|]. intros [|m] Hm.
    + cbn [nth app]. now apply SL.
    + cbn [nth]. cbn in Hm. specialize (V m ltac:(lia)). exact V.
Qed.
