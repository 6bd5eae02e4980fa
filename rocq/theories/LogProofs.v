(** Proofs about the logging of iterations. *)
From Verif Require Import Base RBase LogModel LogSpec.

Lemma nget_nset : forall A k k' (v : A) d, nget k (nset k' v d) = if Nat.eqb k k' then Some v else nget k d.
Proof.
  intros A k k' v d. induction d as [|[a w] d IH]; cbn [nset nget].
  - reflexivity.
  - destruct (Nat.eqb_spec k' a) as [->|H]; cbn [nget].
    + destruct (Nat.eqb k a); reflexivity.
    + destruct (Nat.eqb_spec k a) as [->|H']; [|apply IH]. now replace (Nat.eqb a k') with false by (symmetry; apply Nat.eqb_neq; congruence).
Qed.
Lemma nset_keys : forall A k (v : A) d, forall i, In i (map fst (nset k v d)) <-> i = k \/ In i (map fst d).
Proof.
  intros A k v d i. induction d as [|[a w] d IH]; cbn [nset map fst].
  - cbn. intuition.
  - destruct (Nat.eqb_spec k a) as [->|H]; cbn [map fst]; cbn [In]; [intuition|]. rewrite IH. intuition.
Qed.
Lemma nset_nodup : forall A k (v : A) d, NoDup (map fst d) -> NoDup (map fst (nset k v d)).
Proof.
  intros A k v d. induction d as [|[a w] d IH]; intro ND; cbn [nset map fst].
  - constructor; [intros []|constructor].
  - apply NoDup_cons_iff in ND. destruct ND as [N1 N2]. destruct (Nat.eqb_spec k a) as [->|H]; cbn [map fst]; constructor; auto. rewrite nset_keys. intros [->|Hin]; [congruence|contradiction].
Qed.
Lemma nget_none : forall A k (d : list (nat * A)), nget k d = None <-> ~ In k (map fst d).
Proof.
  intros A k d. induction d as [|[a w] d IH]; cbn [nget map fst In]; [tauto|]. destruct (Nat.eqb_spec k a) as [->|H]; [split; [discriminate|intro X; exfalso; auto]|]. rewrite IH. split; [intros X [Y|Y]; [congruence|contradiction]|auto].
Qed.
Lemma nget_in : forall A k (v : A) d, nget k d = Some v -> In (k, v) d.
Proof. intros A k v d. induction d as [|[a w] d IH]; cbn [nget]; [discriminate|]. destruct (Nat.eqb_spec k a) as [->|H]; intro E; [injection E as ->; now left|right; auto]. Qed.
Lemma in_nget : forall A k (v : A) d, NoDup (map fst d) -> In (k, v) d -> nget k d = Some v.
Proof.
  intros A k v d. induction d as [|[a w] d IH]; cbn [nget map fst]; intros ND Hin; [contradiction|]. apply NoDup_cons_iff in ND. destruct ND as [N1 N2]. destruct Hin as [E|Hin]; [injection E as -> ->; now rewrite Nat.eqb_refl|]. destruct (Nat.eqb_spec k a) as [->|H]; [exfalso; apply N1; apply in_map_iff; now exists (a, v)|auto].
Qed.
Lemma ndel_in : forall A k (d : list (nat * A)), NoDup (map fst d) -> forall e, In e (ndel k d) <-> In e d /\ fst e <> k.
Proof.
  intros A k d. induction d as [|[a w] d IH]; cbn [ndel map fst]; intros ND e; [cbn; tauto|]. apply NoDup_cons_iff in ND. destruct ND as [N1 N2]. destruct (Nat.eqb_spec k a) as [->|H].
  - cbn [In]. split; [intro Hin; split; [auto|]; intros E; apply N1; apply in_map_iff; exists e; auto|]. intros [[<-|Hin] Hne]; [cbn in Hne; congruence|assumption].
  - cbn [In]. rewrite IH by assumption. split; [intros [<-|[X Y]]; cbn; auto|]. intros [[<-|X] Y]; auto.
Qed.
Lemma ndel_nodup : forall A k (d : list (nat * A)), NoDup (map fst d) -> NoDup (map fst (ndel k d)).
Proof.
  intros A k d ND. induction d as [|[a w] d IH]; cbn [ndel map fst]; [constructor|]. cbn [map fst] in ND. pose proof ND as ND'. apply NoDup_cons_iff in ND. destruct ND as [N1 N2]. destruct (Nat.eqb_spec k a) as [->|H]; [assumption|]. cbn [map fst]. constructor; [|auto].
  intro Hin. apply in_map_iff in Hin. destruct Hin as (e & E & Hin). apply ndel_in in Hin; [|assumption]. apply N1. apply in_map_iff. exists e. tauto.
Qed.

(** *** sorting of rows *)
Definition row_lt (a b : row) : Prop := (r_iter a < r_iter b)%nat \/ (r_iter a = r_iter b /\ r_mesh a < r_mesh b).
Lemma row_lt_leb : forall a b, row_lt a b -> row_leb a b = true.
Proof. intros a b [H|[H H']]; unfold row_leb; destruct (Nat.ltb_spec (r_iter a) (r_iter b)); try reflexivity; [lia|]. rewrite H, Nat.eqb_refl. destruct (Rle_dec _ _); [reflexivity|lra]. Qed.
Lemma row_lt_nleb : forall a b, row_lt a b -> row_leb b a = false.
Proof.
  intros a b [H|[H H']]; unfold row_leb.
  - destruct (Nat.ltb_spec (r_iter b) (r_iter a)); [lia|]. destruct (Nat.eqb_spec (r_iter b) (r_iter a)); [lia|reflexivity].
  - destruct (Nat.ltb_spec (r_iter b) (r_iter a)); [lia|]. rewrite H, Nat.eqb_refl. destruct (Rle_dec _ _); [lra|reflexivity].
Qed.
Lemma row_lt_trans : forall a b c, row_lt a b -> row_lt b c -> row_lt a c.
Proof. intros a b c [H|[H H']] [K|[K K']]; unfold row_lt; try (left; lia). right. split; [lia|lra]. Qed.
Lemma insert_perm : forall a l, Permutation (insert_row a l) (a :: l).
Proof. intros a l. induction l as [|b l IH]; cbn [insert_row]; [reflexivity|]. destruct (row_leb a b); [reflexivity|]. rewrite IH. constructor. Qed.
Lemma sort_perm : forall l, Permutation (sort_rows l) l.
Proof. induction l as [|a l IH]; cbn [sort_rows]; [reflexivity|]. rewrite insert_perm. now constructor. Qed.
(** the strictly ordered arrangement of some rows is what sorting gives, whatever the order they come in *)
Lemma insert_unique : forall a l t, StronglySorted row_lt t -> Permutation t (a :: l) -> forall l', StronglySorted row_lt l' -> Permutation l' l -> insert_row a l' = t.
Proof.
  intros a l t St Pt l' Sl Pl. assert (Permutation t (a :: l')) as P by (rewrite Pt, Pl; reflexivity). clear Pt Pl. revert t St P. induction Sl as [|b l' Sl IH Fb]; intros t St P.
  - cbn. symmetry. now apply Permutation_length_1_inv, Permutation_sym.
  - cbn [insert_row]. destruct t as [|c t]; [apply Permutation_nil in P; discriminate|]. apply StronglySorted_inv in St. destruct St as [St Ft].
    assert (In c (a :: b :: l')) as Hc by (rewrite <- P; now left).
    assert (forall d, In d (a :: b :: l') -> d = c \/ row_lt c d) as Hmin.
    { intros d Hd. rewrite <- P in Hd. destruct Hd as [->|Hd]; [auto|]. right. rewrite Forall_forall in Ft. auto. }
    assert (forall d, row_lt d d -> False) as Irr by (intros d [H|[_ H]]; [lia|lra]).
    assert (forall x y, row_lt x y -> row_lt y x -> False) as Asym by (intros x y H1 H2; apply (Irr x); eapply row_lt_trans; eauto).
    destruct (Hmin a) as [Ha|Ha]; [now left| |].
    + subst c. apply Permutation_cons_inv in P. destruct (Hmin b) as [Hb|Hb]; [right; now left| |].
      * subst b. exfalso. rewrite Forall_forall in Ft. apply (Irr a). apply Ft. rewrite P. now left.
      * rewrite (row_lt_leb _ _ Hb). f_equal.
        assert (forall u v, StronglySorted row_lt u -> StronglySorted row_lt v -> Permutation u v -> u = v) as Uniq.
        { clear - Asym. induction u as [|x u IHu]; intros v Su Sv Puv; [now rewrite (Permutation_nil Puv)|]. destruct v as [|y v]; [apply Permutation_sym, Permutation_nil in Puv; discriminate|].
          apply StronglySorted_inv in Su. destruct Su as [Su Fu]. apply StronglySorted_inv in Sv. destruct Sv as [Sv Fv]. rewrite Forall_forall in Fu, Fv.
          assert (x = y) as <-. { assert (In x (y :: v)) as Hx by (rewrite <- Puv; now left). assert (In y (x :: u)) as Hy by (rewrite Puv; now left). destruct Hx as [|Hx]; [auto|]. destruct Hy as [|Hy]; [auto|]. exfalso. eapply Asym; [apply Fu, Hy|apply Fv, Hx]. }
          f_equal. apply IHu; auto. now apply Permutation_cons_inv in Puv. }
        symmetry. apply Uniq; [assumption|constructor; assumption|assumption].
    + assert (c = b) as ->.
      { destruct Hc as [Hc|[Hc|Hc]]; [subst; exfalso; eauto|auto|]. destruct (Hmin b) as [Hb|Hb]; [right; now left|auto|]. exfalso. rewrite Forall_forall in Fb. specialize (Fb c Hc). eauto. }
      rewrite (row_lt_nleb _ _ Ha). f_equal. apply IH; [assumption|]. apply (Permutation_cons_inv (a := b)). rewrite P. apply perm_swap.
Qed.
Lemma filter_sorted : forall (P : row -> bool) l, StronglySorted row_lt l -> StronglySorted row_lt (filter P l).
Proof.
  intros P l S. induction S as [|a l S IH F]; cbn [filter]; [constructor|]. destruct (P a); [|assumption]. constructor; [assumption|]. apply Forall_forall. intros x Hx. apply filter_In in Hx. rewrite Forall_forall in F. now apply F.
Qed.
Lemma sorted_remove : forall a l t, StronglySorted row_lt t -> Permutation t (a :: l) -> exists t', StronglySorted row_lt t' /\ Permutation t' l.
Proof.
  intros a l t S P. assert (In a t) as Ha by (rewrite P; now left). apply in_split in Ha. destruct Ha as (t1 & t2 & ->). exists (t1 ++ t2). split.
  - clear P. induction t1 as [|b t1 IH]; [now apply StronglySorted_inv in S|]. cbn [app] in *. apply StronglySorted_inv in S. destruct S as [S F]. constructor; [auto|]. apply Forall_app in F. destruct F as [F1 F2]. apply Forall_cons_iff in F2. apply Forall_app. tauto.
  - apply (Permutation_cons_inv (a := a)). rewrite <- P. apply Permutation_middle.
Qed.
Lemma sort_unique : forall l t, StronglySorted row_lt t -> Permutation t l -> sort_rows l = t.
Proof.
  induction l as [|a l IH]; intros t S P.
  - apply Permutation_sym, Permutation_nil in P. now subst.
  - cbn [sort_rows]. destruct (sorted_remove a l t S P) as (t' & S' & P'). rewrite (IH t' S' P'). eapply insert_unique; eauto.
Qed.

Section L.
Context {V : Type}.
Variables (nmesh scales : list R) (nvs : nat) (mesh_scale : list R -> R) (other : list R -> nat -> list R) (viol : list row -> V).
Variable k : Z.
Hypothesis Hk : (0 < k)%Z.
Hypothesis Hasc : forall i j, (i < j < List.length nmesh)%nat -> vget i nmesh < vget j nmesh.
Notation RR := (result_rows nmesh scales nvs mesh_scale other).
Notation runk := (@run V nmesh scales nvs mesh_scale other (Some k)).

Lemma due_k : forall i, due k i = Z.eqb (Z.of_nat i mod k) 0.
Proof using Hk. intro i. unfold due. destruct (Z.gtb_spec k 0); [reflexivity|lia]. Qed.

(** the files on disk are described by the records *)
Definition rows_opt (p : option (list R)) (i : nat) : list row := match p with Some x => RR x i | None => [] end.
Definition inv (rs : list (metric * option (list R))) (s : lst V) : Prop :=
  NoDup (map fst (l_files s)) /\ (forall i, nget i (l_files s) = if (due k i && existsb (Nat.eqb i) (iters rs))%bool then Some (rows_opt (point_at i rs None) i) else None).

Lemma point_at_app : forall i a b d, point_at i (a ++ b) d = point_at i b (point_at i a d).
Proof. intros i a b. induction a as [|[m x] a IH]; intro d; [reflexivity|]. cbn [app point_at]. apply IH. Qed.
Lemma run_ok : forall es s rs, inv rs s -> (l_x s = None -> recorded (l_num s) (l_x s) es = [] \/ Forall (fun r => snd r <> None) (recorded (l_num s) (l_x s) es)) ->
  let new := recorded (l_num s) (l_x s) es in
  exists s', runk es s = (s', Ok tt) /\ inv (rs ++ new) s' /\ l_x s' = last_point (l_x s) es /\ l_num s' = match rev new with [] => l_num s | (m, _) :: _ => Some (m_iter m) end /\
    l_hist s' = l_hist s ++ map fst new /\ l_results s' = l_results s /\ l_all s' = l_all s /\ l_metrics s' = l_metrics s.
Proof using Hk.
  induction es as [|e es IH]; intros s rs I HX new.
  - exists s. unfold new. cbn. rewrite !app_nil_r. repeat split; auto; apply I.
  - destruct e as [x|m].
    + cbn [run step]. destruct (IH (set_x x s) rs) as (s' & E & R); [exact I|cbn; discriminate|]. exists s'. split; [exact E|]. exact R.
    + cbn [run step]. unfold intermediate. unfold new in *. clear new. cbn [recorded last_point] in *. unfold skipped. destruct (Nat.eqb (m_alg m) 0 && _)%bool eqn:Esk.
      * destruct (IH s rs I HX) as (s' & E & R). exists s'. split; [exact E|exact R].
      * assert (exists s1, log nmesh scales nvs mesh_scale other (Some k) m s = (s1, Ok tt) /\ inv (rs ++ [(m, l_x s)]) s1 /\ l_x s1 = l_x s /\ l_hist s1 = l_hist s ++ [m] /\ l_results s1 = l_results s /\ l_all s1 = l_all s /\ l_metrics s1 = l_metrics s) as (s1 & E1 & I1 & X1 & H1 & R1 & A1 & M1).
        { unfold log. destruct (due k (m_iter m)) eqn:Ed.
          - destruct (l_x s) as [x|] eqn:Ex.
            + eexists. split; [reflexivity|]. cbn [l_files l_x l_hist l_results l_all l_metrics]. split; [|repeat split; auto]. destruct I as [I1 I2]. split; cbn [l_files]; [now apply nset_nodup|]. intro i. rewrite nget_nset, I2. unfold iters. rewrite map_app, existsb_app. cbn [map existsb fst]. rewrite orb_false_r. rewrite point_at_app. cbn [point_at]. rewrite (Nat.eqb_sym (m_iter m) i).
              destruct (Nat.eqb_spec i (m_iter m)) as [->|Hne]; [rewrite Ed, orb_true_r; reflexivity|]. now rewrite orb_false_r.
            + exfalso. destruct (HX eq_refl) as [X|X]; [discriminate|]. apply Forall_cons_iff in X. destruct X as [X _]. now apply X.
          - eexists. split; [reflexivity|]. cbn [l_files l_x l_hist l_results l_all l_metrics]. split; [|repeat split; auto]. destruct I as [I1 I2]. split; cbn [l_files]; [assumption|]. intro i. rewrite I2. unfold iters. rewrite map_app, existsb_app. cbn [map existsb fst]. rewrite orb_false_r. rewrite point_at_app. cbn [point_at]. rewrite (Nat.eqb_sym (m_iter m) i).
            destruct (Nat.eqb_spec i (m_iter m)) as [->|Hne]; [now rewrite Ed|]. now rewrite orb_false_r. }
        rewrite E1. destruct (IH (set_num (m_iter m) s1) (rs ++ [(m, l_x s)])) as (s' & E & I' & X' & N' & H' & R' & A' & M').
        { exact I1. }
        { cbn [set_num l_num l_x]. rewrite X1. intro Ex. destruct (HX Ex) as [X|X]; [discriminate|]. apply Forall_cons_iff in X. right. tauto. }
        cbn [set_num l_num l_x l_hist l_results l_all l_metrics] in *. rewrite X1 in *. exists s'. split; [exact E|]. rewrite <- app_assoc in I'. split; [exact I'|]. split; [exact X'|]. split.
        { rewrite N'. cbn [rev]. destruct (rev (recorded _ _ es)) as [|[m' x'] r]; reflexivity. }
        split; [rewrite H', H1; cbn [map fst]; now rewrite <- app_assoc|]. repeat split; congruence.
Qed.

Lemma rr_iter : forall x i r, In r (RR x i) -> r_iter r = i.
Proof using. intros x i r H. unfold result_rows in H. apply in_map_iff in H. destruct H as (j & <- & _). reflexivity. Qed.
Lemma rr_sorted : forall x i, 0 < mesh_scale x -> StronglySorted row_lt (RR x i).
Proof using Hasc.
  intros x i Hp. unfold result_rows. assert (forall n o, (o + n <= List.length nmesh)%nat -> StronglySorted row_lt (map (fun j => {| r_iter := i; r_mesh := vget j nmesh * mesh_scale x; r_vars := firstn nvs (skipn (j * nvs) (vmul x scales)); r_other := other x j |}) (seq o n))) as G; [|apply G; lia].
  induction n as [|n IH]; intros o Ho; cbn [seq map]; constructor; [apply IH; lia|]. apply Forall_forall. intros r Hr. apply in_map_iff in Hr. destruct Hr as (j & <- & Hj). apply in_seq in Hj. right. split; [reflexivity|]. cbn. apply Rmult_lt_compat_r; [assumption|]. apply Hasc. lia.
Qed.
Lemma flat_sorted : forall (block : nat -> list row) its, StronglySorted lt its -> (forall i, In i its -> StronglySorted row_lt (block i)) -> (forall i r, In r (block i) -> r_iter r = i) -> StronglySorted row_lt (flat_map block its).
Proof using.
  intros block its S HB HI. induction S as [|i its S IH F]; cbn [flat_map]; [constructor|]. specialize (IH (fun j Hj => HB j (or_intror Hj))). specialize (HB i (or_introl eq_refl)).
  assert (forall a b, In a (block i) -> In b (flat_map block its) -> row_lt a b) as Hlt.
  { intros a b Ha Hb. apply in_flat_map in Hb. destruct Hb as (j & Hj & Hb). left. rewrite (HI _ _ Ha), (HI _ _ Hb). rewrite Forall_forall in F. now apply F. }
  clear S F. revert HB Hlt. generalize (block i) as bl. induction bl as [|a bl IHb]; intros HB Hlt; [exact IH|]. cbn [app]. apply StronglySorted_inv in HB. destruct HB as [HB Fa]. constructor; [apply IHb; [assumption|intros; apply Hlt; [now right|assumption]]|]. apply Forall_app. split; [assumption|]. apply Forall_forall. intros b Hb. apply Hlt; [now left|assumption].
Qed.
Lemma seq_sorted : forall n o, StronglySorted lt (seq o n).
Proof using. induction n as [|n IH]; intro o; cbn [seq]; constructor; [apply IH|]. apply Forall_forall. intros x Hx. apply in_seq in Hx. lia. Qed.
Lemma filter_nat_sorted : forall (P : nat -> bool) l, StronglySorted lt l -> StronglySorted lt (filter P l).
Proof using. intros P l S. induction S as [|a l S IH F]; cbn [filter]; [constructor|]. destruct (P a); [|assumption]. constructor; [assumption|]. apply Forall_forall. intros x Hx. apply filter_In in Hx. rewrite Forall_forall in F. now apply F. Qed.
Lemma existsb_iters : forall i l, existsb (Nat.eqb i) l = true <-> In i l.
Proof using. intros i l. rewrite existsb_exists. split; [intros (x & Hx & E); apply Nat.eqb_eq in E; now subst|intro H; exists i; split; [assumption|apply Nat.eqb_refl]]. Qed.

(** which iterations end up in the merged file *)
Definition its_of (rs : list (metric * option (list R))) (N : nat) : list nat := filter (fun i => (Nat.eqb i N || (due k i && existsb (Nat.eqb i) (iters rs)))%bool) (seq 0 (S (list_max (N :: iters rs)))).
Lemma its_in : forall rs N i, In i (its_of rs N) <-> i = N \/ (due k i = true /\ In i (iters rs)).
Proof using. clear Hasc Hk.
  intros rs N i. unfold its_of. rewrite filter_In, orb_true_iff, andb_true_iff, Nat.eqb_eq, existsb_iters. split; [intros [_ H]; exact H|]. intro H. split; [|exact H]. apply in_seq. split; [lia|].
  assert (In i (N :: iters rs)) as Hin by (destruct H as [->|[_ H]]; [now left|now right]). pose proof (proj1 (list_max_le (N :: iters rs) (list_max (N :: iters rs))) (Nat.le_refl _)) as F. rewrite Forall_forall in F. specialize (F i Hin). lia.
Qed.
Lemma its_sorted : forall rs N, StronglySorted lt (its_of rs N).
Proof using. intros. apply filter_nat_sorted, seq_sorted. Qed.
Lemma sorted_lt_nodup : forall l, StronglySorted lt l -> NoDup l.
Proof using. intros l S. induction S as [|a l S IH F]; constructor; [|assumption]. intro H. rewrite Forall_forall in F. specialize (F a H). lia. Qed.

Definition block (rs : list (metric * option (list R))) (N : nat) (xN : list R) (i : nat) : list row := if Nat.eqb i N then RR xN N else rows_opt (point_at i rs None) i.

Definition lab (df : list row) : nat := match df with r :: _ => r_iter r | [] => 0%nat end.
Definition hist0 (ms : list metric) : list (nat * mrow V) := combine (seq 0 (List.length ms)) (map (fun m => {| h_metric := Some m; h_viol := None |}) ms).
Definition put (h : list (nat * mrow V)) (df : list row) : list (nat * mrow V) := set_viol (lab df) (viol df) h.
Lemma final_ok : forall glob s rs N xN, listing glob -> inv rs s -> l_x s = Some xN -> l_num s = Some N -> In N (iters rs) -> 0 < mesh_scale xN -> (forall i x, point_at i rs None = Some x -> 0 < mesh_scale x) ->
  exists s' js, log_final nmesh scales nvs mesh_scale other viol (Some k) glob s = (s', Ok tt) /\ l_files s' = [] /\ l_results s' = Some (RR xN N) /\ l_all s' = Some (flat_map (block rs N xN) (its_of rs N)) /\ l_hist s' = l_hist s /\ l_num s' = Some N /\ l_x s' = Some xN /\
    Permutation js (its_of rs N) /\ l_metrics s' = Some (map snd (fold_left put (map (block rs N xN) js) (hist0 (l_hist s)))).
Proof using Hk Hasc.
  intros glob s rs N xN Hg [I1 I2] Ex En HN Hp Hps. unfold log_final. rewrite Ex, En. destruct (Z.gtb_spec k 0) as [_|]; [|lia].
  assert ((due k N && match nget N (l_files s) with Some _ => false | None => true end)%bool = false) as ->.
  { destruct (due k N) eqn:Ed; [|reflexivity]. rewrite I2, Ed, (proj2 (existsb_iters _ _) HN). reflexivity. }
  set (files := if due k N then ndel N (l_files s) else l_files s).
  assert (NoDup (map fst files)) as NDf by (unfold files; destruct (due k N); [now apply ndel_nodup|assumption]).
  assert (forall e, In e files <-> In e (l_files s) /\ fst e <> N) as INf.
  { intro e. unfold files. destruct (due k N) eqn:Ed; [now apply ndel_in|]. split; [|tauto]. intro H. split; [assumption|]. intro E. destruct e as [i r]. cbn in E. subst i. apply in_nget in H; [|assumption]. rewrite I2, Ed in H. discriminate. }
  assert (forall l, (forall e, In e l -> In e files) -> map snd l = map (block rs N xN) (map fst l)) as EM.
  { intros l Hl. rewrite map_map. apply map_ext_in. intros [i r] Hin. apply Hl in Hin. cbn [fst snd]. apply INf in Hin. destruct Hin as [Hin Hne]. cbn in Hne. apply in_nget in Hin; [|assumption]. rewrite I2 in Hin. destruct (_ && _)%bool; [|discriminate]. injection Hin as <-. unfold block. now replace (Nat.eqb i N) with false by (symmetry; now apply Nat.eqb_neq). }
  assert (map snd (glob files) ++ [RR xN N] = map (block rs N xN) (map fst (glob files) ++ [N])) as ED.
  { rewrite map_app, <- EM; [|intros e He; now rewrite (Hg files) in He]. cbn [map]. unfold block at 1. now rewrite Nat.eqb_refl. }
  assert (Permutation (map fst (glob files) ++ [N]) (its_of rs N)) as PJ.
  { rewrite (Permutation_map fst (Hg files)). symmetry. apply NoDup_Permutation.
    + apply sorted_lt_nodup, its_sorted.
    + apply NoDup_app_intro; [assumption|repeat constructor; intros []|]. intros i Hi [<-|[]]. apply in_map_iff in Hi. destruct Hi as (e & E & He). apply INf in He. tauto.
    + intro i. rewrite its_in, in_app_iff. cbn [In]. split.
      * intros [->|[Hd Hi]]; [auto|]. destruct (Nat.eq_dec i N) as [->|Hne]; [auto|]. left. apply in_map_iff. exists (i, rows_opt (point_at i rs None) i). split; [reflexivity|]. apply INf. split; [|assumption]. apply nget_in. rewrite I2, Hd, (proj2 (existsb_iters _ _) Hi). reflexivity.
      * intros [Hi|[<-|[]]]; [|auto]. right. apply in_map_iff in Hi. destruct Hi as ([j r] & <- & He). cbn [fst] in *. apply INf in He. destruct He as [He _]. apply in_nget in He; [|assumption]. rewrite I2 in He. destruct (due k j); [|discriminate]. destruct (existsb _ _) eqn:E; [|discriminate]. split; [reflexivity|]. now apply existsb_iters. }
  rewrite ED. eexists. exists (map fst (glob files) ++ [N]). split; [reflexivity|]. cbn [l_files l_results l_all l_hist l_num l_x l_metrics]. split; [reflexivity|]. split; [reflexivity|]. split; [|repeat split; assumption].
  f_equal. apply sort_unique.
  - apply flat_sorted; [apply its_sorted| |].
    + intros i Hi. unfold block. destruct (Nat.eqb i N); [now apply rr_sorted|]. destruct (point_at i rs None) as [x|] eqn:E; [apply rr_sorted; eauto|constructor].
    + intros i r Hr. unfold block in Hr. destruct (Nat.eqb_spec i N) as [->|]; [now apply rr_iter in Hr|]. destruct (point_at i rs None); [now apply rr_iter in Hr|contradiction].
  - rewrite <- flat_map_concat_map. apply Permutation_flat_map. now symmetry.
Qed.

(** assigning the violation of the files to the lines of the history *)
Lemma nset_fst : forall A i (v : A) h w, nget i h = Some w -> map fst (nset i v h) = map fst h.
Proof using.
  intros A i v h w. induction h as [|[a u] h IH]; cbn [nget nset]; [discriminate|]. destruct (Nat.eqb_spec i a) as [->|]; intro E; cbn [map fst]; [reflexivity|]. now rewrite IH.
Qed.
Lemma put_all : forall (bl : nat -> list row) js h n, map fst h = seq 0 n -> NoDup js -> (forall i, In i js -> (i < n)%nat /\ lab (bl i) = i) ->
  map fst (fold_left put (map bl js) h) = seq 0 n /\ forall i, (i < n)%nat -> nget i (fold_left put (map bl js) h) = match nget i h with Some r => Some (if existsb (Nat.eqb i) js then {| h_metric := h_metric r; h_viol := Some (viol (bl i)) |} else r) | None => None end.
Proof using.
  intros bl js. induction js as [|j js IH]; intros h n Hh ND HJ; cbn [map fold_left existsb].
  - split; [assumption|]. intros i Hi. now destruct (nget i h).
  - apply NoDup_cons_iff in ND. destruct ND as [N1 N2]. destruct (HJ j (or_introl eq_refl)) as [Hj Lj].
    assert (exists r, nget j h = Some r) as [r Er]. { destruct (nget j h) eqn:E; [eauto|]. apply nget_none in E. exfalso. apply E. rewrite Hh. apply in_seq. lia. }
    assert (put h (bl j) = nset j {| h_metric := h_metric r; h_viol := Some (viol (bl j)) |} h) as EP by (unfold put, set_viol; now rewrite Lj, Er).
    destruct (IH (put h (bl j)) n) as [F G]; [rewrite EP; now rewrite (nset_fst _ _ _ _ r Er)|assumption|intros i Hi; apply HJ; now right|]. split; [exact F|]. intros i Hi. rewrite G by assumption. rewrite EP, nget_nset. destruct (Nat.eqb_spec i j) as [->|Hne]; cbn [orb].
    + rewrite Er. assert (existsb (Nat.eqb j) js = false) as ->; [|reflexivity]. destruct (existsb _ _) eqn:E; [|reflexivity]. exfalso. apply N1. now apply existsb_iters.
    + reflexivity.
Qed.
Lemma nget_combine : forall A (l : list A) o i, nget (o + i) (combine (seq o (List.length l)) l) = nth_error l i.
Proof using.
  intros A l. induction l as [|a l IH]; intros o i; cbn [List.length seq combine nget]; [now destruct i|]. destruct i as [|i]; [now rewrite Nat.add_0_r, Nat.eqb_refl|]. replace (Nat.eqb (o + S i) o) with false by (symmetry; apply Nat.eqb_neq; lia). cbn [nth_error]. rewrite <- (IH (S o)). f_equal. lia.
Qed.
Lemma seq_keys_nth : forall A (h : list (nat * A)) n o, map fst h = seq o n -> forall i, (i < n)%nat -> nth_error (map snd h) i = nget (o + i) h.
Proof using.
  intros A h. induction h as [|[a v] h IH]; intros n o Hh i Hi; destruct n as [|n]; cbn in Hh; try discriminate; [lia|]. injection Hh as -> Hh. cbn [map snd nget]. destruct i as [|i]; cbn [nth_error]; [now rewrite Nat.add_0_r, Nat.eqb_refl|]. replace (Nat.eqb (o + S i) o) with false by (symmetry; apply Nat.eqb_neq; lia). rewrite (IH n (S o) Hh) by lia. f_equal. lia.
Qed.
End L.
