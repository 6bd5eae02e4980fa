(** C40 continued: stacking, splitting, interpolation, trigonometry, rotations, spacing. *)
From Coq Require Import Nsatz.
From Coq Require Import List.
From Verif Require Import Base RBase UtilsModel UtilsProofs UtilsProofs2 CollocProofs CasModel CasSpec.

(** ** stack, column_stack, row_stack: entries and shapes for vectors of one length; different lengths are refused *)
Lemma horzcat_ok : forall vs n, vs <> [] -> (forall v, In v vs -> List.length v = n) -> horzcat vs = Ok {| cr := n; cc := List.length vs; ce := fun i j => vget i (nth j vs []) |}.
Proof.
  intros [|v vs] n Hne H; [congruence|]. unfold horzcat. rewrite (H v (or_introl eq_refl)).
  replace (forallb _ _) with true; [reflexivity|]. symmetry. apply forallb_forall. intros w Hw. apply Nat.eqb_eq. now apply H.
Qed.
Theorem C40_stack : forall vs n, vs <> [] -> (forall v, In v vs -> List.length v = n) ->
  (forall ax, ax = 0%Z \/ ax = (-2)%Z -> exists x, lnp_stack vs ax = Ok x /\ lnp_row_stack vs = Ok x /\ cr x = List.length vs /\ cc x = n /\ forall i j, (i < List.length vs)%nat -> (j < n)%nat -> ce x i j = vget j (nth i vs [])) /\
  (forall ax, ax = 1%Z \/ ax = (-1)%Z -> exists x, lnp_stack vs ax = Ok x /\ lnp_column_stack vs = Ok x /\ cr x = n /\ cc x = List.length vs /\ forall i j, (i < n)%nat -> (j < List.length vs)%nat -> ce x i j = vget i (nth j vs [])) /\
  (forall ax, ~ (-2 <= ax <= 1)%Z -> lnp_stack vs ax = Raise ValueError).
Proof.
  intros vs n Hne H. unfold lnp_stack, lnp_row_stack, lnp_column_stack. rewrite (horzcat_ok vs n Hne H). cbn [fmap]. split; [|split].
  - intros ax [-> | ->]; eexists; (split; [reflexivity|]); (split; [reflexivity|]); cbn; auto.
  - intros ax [-> | ->]; eexists; (split; [reflexivity|]); (split; [reflexivity|]); cbn; auto.
  - intros ax Hax. destruct (Z.eqb_spec ax 0), (Z.eqb_spec ax (-2)), (Z.eqb_spec ax 1), (Z.eqb_spec ax (-1)); cbn; try lia; reflexivity.
Qed.
Print Assumptions C40_stack.
Theorem C40_stack_rejects : forall vs v w, In v vs -> In w vs -> List.length v <> List.length w -> lnp_column_stack vs = Raise RuntimeError /\ lnp_row_stack vs = Raise RuntimeError.
Proof.
  intros vs v w Hv Hw Hne. assert (horzcat vs = Raise RuntimeError) as E.
  { destruct vs as [|u vs]; [destruct Hv|]. unfold horzcat. destruct (forallb _ _) eqn:F; [|reflexivity]. rewrite forallb_forall in F. apply F, Nat.eqb_eq in Hv. apply F, Nat.eqb_eq in Hw. congruence. }
  unfold lnp_column_stack, lnp_row_stack. now rewrite E.
Qed.
Print Assumptions C40_stack_rejects.

(** ** split *)
Fixpoint chain (a : nat) (idx : list nat) (n : nat) : Prop := match idx with [] => (a <= n)%nat | b :: r => (a <= b)%nat /\ chain b r n end.
Lemma chain_monotone : forall idx a n, monotone (a :: idx ++ [n]) = true <-> chain a idx n.
Proof.
  induction idx as [|b r IH]; intros a n.
  - cbn. rewrite andb_true_r. apply Nat.leb_le.
  - specialize (IH b n). change (monotone (a :: (b :: r) ++ [n])) with (Nat.leb a b && monotone (b :: r ++ [n]))%bool. rewrite andb_true_iff, IH, Nat.leb_le. reflexivity.
Qed.
Lemma last_snoc : forall X (l : list X) a d, last (l ++ [a]) d = a.
Proof. induction l as [|b l IH]; intros a d; [reflexivity|]. cbn [app]. rewrite <- (IH a d) at 2. destruct (l ++ [a]) eqn:E; [now destruct l|reflexivity]. Qed.
Lemma parts_np : forall X (l : list X) idx a, parts l (a :: idx ++ [List.length l]) = np_split_from l a idx.
Proof. induction idx as [|b r IH]; intro a; [reflexivity|]. change (parts l (a :: (b :: r) ++ [List.length l])) with (part l a b :: parts l (b :: r ++ [List.length l])). now rewrite IH. Qed.
Theorem C40_split_list : forall X (l : list X) idx,
  (chain 0 idx (List.length l) -> lnp_split_list l idx = Ok (np_split l idx)) /\ (~ chain 0 idx (List.length l) -> lnp_split_list l idx = Raise RuntimeError).
Proof.
  intros X l idx. unfold lnp_split_list, cas_split_offsets. change (0%nat :: idx ++ [List.length l]) with ((0%nat :: idx) ++ [List.length l]) at 2 4. rewrite !last_snoc, Nat.eqb_refl, andb_true_r. split; intro H.
  - apply chain_monotone in H. rewrite H. now rewrite parts_np.
  - destruct (monotone _) eqn:E; [|reflexivity]. exfalso. apply H. now apply chain_monotone.
Qed.
Print Assumptions C40_split_list.
(** numpy accepts indices beyond the end or out of order; the CasADi layer does not *)
Theorem C40_split_list_refuted : np_split [1; 2; 3] [2%nat; 5%nat] = [[1; 2]; [3]; []] /\ lnp_split_list [1; 2; 3] [2%nat; 5%nat] = Raise RuntimeError.
Proof. split; reflexivity. Qed.

(** equal parts *)
Lemma parts_const : forall X s (l : list X) k o, parts l (map (fun i => i * k)%nat (seq o (S s))) = map (fun i => part l (i * k) (S i * k)) (seq o s).
Proof. intros X s l k. induction s as [|s IH]; intro o; [reflexivity|]. specialize (IH (S o)). cbn [seq map] in *. cbn [parts] in *. now rewrite IH. Qed.
Lemma monotone_seq : forall k s o, monotone (map (fun i => i * k)%nat (seq o s)) = true.
Proof. intros k s. induction s as [|s IH]; intro o; [reflexivity|]. destruct s as [|s]; [reflexivity|]. specialize (IH (S o)). cbn [seq map monotone] in *. rewrite IH, andb_true_r. apply Nat.leb_le. nia. Qed.
Lemma concat_parts : forall X (l : list X) k s, (s * k <= List.length l)%nat -> concat (map (fun i => part l (i * k) (S i * k)) (seq 0 s)) = firstn (s * k) l.
Proof.
  intros X l k s. induction s as [|s IH]; intro H; [reflexivity|]. rewrite seq_S, map_app, concat_app, IH by nia. cbn [map concat plus]. rewrite app_nil_r. unfold part.
  replace (S s * k - s * k)%nat with k by nia. replace (S s * k)%nat with (s * k + k)%nat by nia. generalize (s * k)%nat as m. clear. intro m. revert l. induction m as [|m IH]; intro l; [reflexivity|]. destruct l as [|a l]; [cbn; now rewrite firstn_nil|]. cbn. now rewrite IH.
Qed.
Theorem C40_split_int : forall X (l : list X) s, (0 < s)%nat -> l <> [] ->
  ((List.length l mod s = 0)%nat -> exists ps, lnp_split_int l s = Ok ps /\ List.length ps = s /\ concat ps = l /\ forall p, In p ps -> List.length p = (List.length l / s)%nat) /\
  ((List.length l mod s <> 0)%nat -> lnp_split_int l s = Raise ValueError).
Proof.
  intros X l s Hs Hl. set (n := List.length l). assert (0 < n)%nat as Hn by (subst n; destruct l; [congruence|cbn; lia]). unfold lnp_split_int. fold n. replace (Nat.eqb s 0) with false by (symmetry; apply Nat.eqb_neq; lia). split; intro H.
  - rewrite H, Nat.eqb_refl. cbn [negb]. set (k := (n / s)%nat). assert (n = s * k)%nat as En by (pose proof (Nat.div_mod n s); subst k; lia). assert (0 < k)%nat as Hk by (destruct k; lia).
    unfold cas_split_incr. fold n. replace (Nat.eqb k 0) with false by (symmetry; apply Nat.eqb_neq; lia).
    assert ((n + k - 1) / k = s)%nat as -> by (symmetry; apply (Nat.div_unique (n + k - 1) k s (k - 1)); [lia|rewrite (Nat.mul_comm k s); lia]).
    replace (map (fun i => i * k)%nat (seq 0 s) ++ [n]) with (map (fun i => i * k)%nat (seq 0 (S s))) by (rewrite seq_S, map_app; cbn [map plus]; now rewrite En).
    exists (map (fun i => part l (i * k) (S i * k)) (seq 0 s)). split.
    + unfold cas_split_offsets. rewrite monotone_seq. assert (last (map (fun i => i * k)%nat (seq 0 (S s))) 0%nat = n) as -> by (rewrite seq_S, map_app; cbn [map]; rewrite last_snoc; cbn [plus]; now rewrite En). fold n. rewrite Nat.eqb_refl. cbn [andb]. rewrite parts_const. cbn [seq map]. rewrite Nat.mul_0_l. reflexivity.
    + split; [now rewrite map_length, seq_length|]. split.
      * rewrite concat_parts by (fold n; lia). rewrite <- En. apply firstn_all.
      * intros p Hp. apply in_map_iff in Hp. destruct Hp as (i & <- & Hi). apply in_seq in Hi. unfold part. rewrite firstn_length, skipn_length. fold n. nia.
  - replace (Nat.eqb (n mod s) 0) with false by (symmetry; now apply Nat.eqb_neq). reflexivity.
Qed.
Print Assumptions C40_split_int.
(** an empty array cannot be split (numpy returns s empty parts) *)
Theorem C40_split_empty_refuted : forall X s, (0 < s)%nat -> lnp_split_int (@nil X) s = Raise RuntimeError.
Proof. intros X s H. unfold lnp_split_int. cbn [List.length]. replace (Nat.eqb s 0) with false by (symmetry; apply Nat.eqb_neq; lia). rewrite Nat.mod_0_l, Nat.div_0_l by lia. reflexivity. Qed.

(** ** interp *)
Definition strictly_inc (l : list R) := forall i, (S i < List.length l)%nat -> vget i l < vget (S i) l.
Lemma increasing_ok : forall l, increasing l = true <-> strictly_inc l.
Proof.
  induction l as [|a l IH]; [split; [intros _ i Hi; cbn in Hi; lia|reflexivity]|]. destruct l as [|b l]; [split; [intros _ i Hi; cbn in Hi; lia|reflexivity]|].
  change (increasing (a :: b :: l)) with ((if Rlt_dec a b then true else false) && increasing (b :: l))%bool. rewrite andb_true_iff, IH. split.
  - intros [E H] [|i] Hi; [destruct (Rlt_dec a b); [assumption|discriminate]|]. apply (H i). cbn in *; lia.
  - intro H. split; [destruct (Rlt_dec a b) as [|N]; [reflexivity|]; exfalso; apply N, (H 0%nat); cbn; lia|]. intros i Hi. apply (H (S i)). cbn in *; lia.
Qed.
Lemma inc_le : forall l, strictly_inc l -> forall j i, (i <= j)%nat -> (j < List.length l)%nat -> vget i l <= vget j l.
Proof. intros l H j. induction j as [|j IH]; intros i Hi Hj; [replace i with 0%nat by lia; lra|]. destruct (Nat.eq_dec i (S j)) as [->|]; [lra|]. specialize (IH i). assert (vget j l < vget (S j) l) by now apply H. assert (vget i l <= vget j l) by (apply IH; lia). lra. Qed.
Lemma inc_lt : forall l, strictly_inc l -> forall j i, (i < j)%nat -> (j < List.length l)%nat -> vget i l < vget j l.
Proof. intros l H j i Hi Hj. assert (vget i l < vget (S i) l) by (apply H; lia). assert (vget (S i) l <= vget j l) by (apply inc_le; [assumption|lia|assumption]). lra. Qed.
Lemma low_ok : forall grid o x, (2 <= List.length grid)%nat -> exists k, low o grid x = (o + k)%nat /\ (S k < List.length grid)%nat /\ (forall j, (j < k)%nat -> vget (S j) grid <= x) /\ ((S (S k) < List.length grid)%nat -> x < vget (S k) grid).
Proof.
  induction grid as [|a grid IH]; intros o x H; [cbn in H; lia|]. destruct grid as [|g r]; [cbn in H; lia|]. destruct r as [|c r].
  - exists 0%nat. cbn. repeat split; intros; lia.
  - change (low o (a :: g :: c :: r) x) with (if Rlt_dec x g then o else low (S o) (g :: c :: r) x). destruct (Rlt_dec x g) as [L|N].
    + exists 0%nat. cbn [List.length]. repeat split; [lia|lia|intros; lia|]. intros _. exact L.
    + destruct (IH (S o) x) as (k & E & Hk & Hlo & Hhi); [cbn; lia|]. exists (S k). cbn [List.length] in *. repeat split; [rewrite E; lia|lia| |].
      * intros [|j] Hj; [change (g <= x); lra|]. apply (Hlo j). lia.
      * intro Hk'. apply Hhi. lia.
Qed.
Theorem C40_interp : forall x xp fp left right, (2 <= List.length xp)%nat -> List.length xp = List.length fp ->
  (strictly_inc xp -> exists y, lnp_interp x xp fp left right = Ok y /\
     interp_spec xp fp (match left with Some l => l | None => vget 0 fp end) (match right with Some r => r | None => vget (List.length fp - 1) fp end) x y) /\
  (~ strictly_inc xp -> lnp_interp x xp fp left right = Raise RuntimeError).
Proof.
  intros x xp fp left right H2 Hlen. unfold lnp_interp. rewrite <- Hlen, Nat.eqb_refl. replace (Nat.leb 2 (List.length xp)) with true by (symmetry; now apply Nat.leb_le). rewrite !andb_true_r. split; intro Hinc.
  - pose proof (proj2 (increasing_ok xp) Hinc) as ->. eexists. split; [reflexivity|]. set (lv := match left with Some l => l | None => _ end). set (rv := match right with Some r => r | None => _ end). set (n := List.length xp) in *. unfold interp_spec. fold n.
    assert (vget 0 xp < vget (n - 1) xp) as Hends by (apply inc_lt; [assumption|lia|lia]). split; [|split].
    + intro Hx. destruct (Rlt_dec (vget (n - 1) xp) x); [lra|]. destruct (Rlt_dec x (vget 0 xp)); [reflexivity|lra].
    + intro Hx. destruct (Rlt_dec (vget (n - 1) xp) x); [reflexivity|lra].
    + intros i Hi [Hx1 Hx2]. assert (vget 0 xp <= vget i xp) by (apply inc_le; [assumption|lia|lia]). assert (vget (S i) xp <= vget (n - 1) xp) by (apply inc_le; [assumption|lia|lia]).
      destruct (Rlt_dec (vget (n - 1) xp) x); [lra|]. destruct (Rlt_dec x (vget 0 xp)); [lra|]. unfold lut. destruct (low_ok xp 0 x H2) as (k & -> & Hk & Hlo & Hhi). cbn [plus]. fold n in Hk, Hhi.
      assert (vget i xp < vget (S i) xp) as Hgi by (apply Hinc; assumption). assert (vget k xp < vget (S k) xp) as Hgk by (apply Hinc; assumption).
      destruct (lt_eq_lt_dec k i) as [[L|E]|G].
      * assert (x < vget (S k) xp) by (apply Hhi; lia). assert (vget (S k) xp <= vget i xp) by (apply inc_le; [assumption|lia|lia]). lra.
      * subst k. field. lra.
      * (* x is the node i+1, and k = i+1 *)
        assert (vget k xp <= x) as Hk' by (specialize (Hlo (k - 1)%nat); replace (S (k - 1)) with k in Hlo by lia; apply Hlo; lia). assert (vget (S i) xp <= vget k xp) by (apply inc_le; [assumption|lia|lia]).
        assert (x = vget (S i) xp) as Ex by lra. assert (k = S i) as ->. { destruct (Nat.eq_dec k (S i)); [assumption|]. assert (vget (S i) xp < vget k xp) by (apply inc_lt; [assumption|lia|lia]). lra. }
        rewrite Ex. field. split; lra.
  - destruct (increasing xp) eqn:E; [|reflexivity]. exfalso. now apply Hinc, increasing_ok.
Qed.
Print Assumptions C40_interp.

(** ** trigonometry in degrees *)
Lemma rad_deg : forall x, radians (degrees x) = x.
Proof. intro x. unfold radians, degrees. field. apply PI_neq0. Qed.
Lemma deg_rad : forall x, degrees (radians x) = x.
Proof. intro x. unfold radians, degrees. field. apply PI_neq0. Qed.
Theorem C40_trig : forall x, degrees (radians x) = x /\ radians (degrees x) = x /\ radians 180 = PI /\
  sind (x + 360) = sind x /\ cosd (x + 360) = cosd x /\ sind x * sind x + cosd x * cosd x = 1 /\ tand x = sind x / cosd x /\ sind (x + 90) = cosd x /\
  (-90 <= x <= 90 -> arcsind (sind x) = x) /\ (0 <= x <= 180 -> arccosd (cosd x) = x) /\
  (-1 <= x <= 1 -> sind (arcsind x) = x /\ cosd (arccosd x) = x /\ -90 <= arcsind x <= 90 /\ 0 <= arccosd x <= 180).
Proof.
  intro x. pose proof PI_RGT_0 as HP. repeat split.
  - apply deg_rad. - apply rad_deg. - unfold radians. lra.
  - unfold sind. replace (radians (x + 360)) with (radians x + 2 * INR 1 * PI) by (unfold radians; cbn; lra). apply sin_period.
  - unfold cosd. replace (radians (x + 360)) with (radians x + 2 * INR 1 * PI) by (unfold radians; cbn; lra). apply cos_period.
  - unfold sind, cosd. apply sin2_cos2.
  - unfold sind, cosd. replace (radians (x + 90)) with (PI / 2 + radians x) by (unfold radians; lra). symmetry. apply cos_sin.
  - intro H. unfold arcsind, sind. rewrite asin_sin; [apply deg_rad|]. unfold radians. split; nra.
  - intro H. unfold arccosd, cosd. rewrite acos_cos; [apply deg_rad|]. unfold radians. split; nra.
  - unfold sind, arcsind. rewrite rad_deg. apply sin_asin. lra.
  - unfold cosd, arccosd. rewrite rad_deg. apply cos_acos. lra.
  - pose proof (asin_bound x). unfold arcsind, degrees. apply Rmult_le_reg_r with PI; [lra|]. replace (asin x * 180 / PI * PI) with (asin x * 180) by (field; lra). lra.
  - pose proof (asin_bound x). unfold arcsind, degrees. apply Rmult_le_reg_r with PI; [lra|]. replace (asin x * 180 / PI * PI) with (asin x * 180) by (field; lra). lra.
  - pose proof (acos_bound x). unfold arccosd, degrees. apply Rmult_le_reg_r with PI; [lra|]. replace (acos x * 180 / PI * PI) with (acos x * 180) by (field; lra). lra.
  - pose proof (acos_bound x). unfold arccosd, degrees. apply Rmult_le_reg_r with PI; [lra|]. replace (acos x * 180 / PI * PI) with (acos x * 180) by (field; lra). lra.
Qed.
Print Assumptions C40_trig.

(** ** rotations *)
Lemma sc1 : forall t, cos t * cos t + sin t * sin t = 1.
Proof. intro t. pose proof (sin2_cos2 t) as H. unfold Rsqr in H. lra. Qed.
Lemma mat_eq2 : forall (a b c d a' b' c' d' : R), a = a' -> b = b' -> c = c' -> d = d' -> [[a; b]; [c; d]] = [[a'; b']; [c'; d']].
Proof. intros; subst; reflexivity. Qed.
Theorem C40_rotation_2D : forall s t, let Rm := rotation_matrix_2D in
  mprod 2 (Rm s) (mtr 2 (Rm s)) = ident 2 /\ det2 (Rm s) = 1 /\ mprod 2 (Rm s) (Rm t) = Rm (s + t) /\ Rm 0 = ident 2 /\
  mapply 2 (Rm s) [cos t; sin t] = [cos (s + t); sin (s + t)].
Proof.
  intros s t Rm. subst Rm. unfold rotation_matrix_2D, mprod, mtr, ident, mapply, det2, vget. cbn [seq map rsum fold_right nth Nat.eqb]. pose proof (sc1 s). rewrite ?sin_plus, ?cos_plus, ?sin_0, ?cos_0. repeat split.
  - apply mat_eq2; lra. - lra. - apply mat_eq2; lra. - apply mat_eq2; lra. - f_equal; [lra|f_equal; lra].
Qed.
Print Assumptions C40_rotation_2D.
(** unit axes *)
Definition unit3 (a : list R) := List.length a = 3%nat /\ vget 0 a * vget 0 a + vget 1 a * vget 1 a + vget 2 a * vget 2 a = 1.
Lemma mat_eq3 : forall (a b c d e f g h i a' b' c' d' e' f' g' h' i' : R), a = a' -> b = b' -> c = c' -> d = d' -> e = e' -> f = f' -> g = g' -> h = h' -> i = i' -> [[a; b; c]; [d; e; f]; [g; h; i]] = [[a'; b'; c']; [d'; e'; f']; [g'; h'; i']].
Proof. intros; subst; reflexivity. Qed.
Theorem C40_rotation_3D_unit : forall s t a, unit3 a -> let Rm t := rotation_matrix_3D t a true in
  mprod 3 (Rm s) (mtr 3 (Rm s)) = ident 3 /\ det3 (Rm s) = 1 /\ mapply 3 (Rm s) a = a /\ mprod 3 (Rm s) (Rm t) = Rm (s + t) /\ Rm 0 = ident 3.
Proof.
  intros s t a [Hl Hu] Rm. subst Rm. destruct a as [|x [|y [|z [|? ?]]]]; try discriminate Hl. unfold vget in Hu. cbn in Hu. unfold rotation_matrix_3D, mprod, mtr, ident, mapply, det3, vget. cbn [seq map rsum fold_right nth Nat.eqb]. pose proof (sc1 s) as H1. pose proof (sc1 t) as H2. rewrite ?sin_plus, ?cos_plus, ?sin_0, ?cos_0.
  generalize dependent (sin s). generalize dependent (cos s). intros c1 s1 H1. generalize dependent (sin t). generalize dependent (cos t). intros c2 s2 H2. repeat split.
  - apply mat_eq3; nsatz.
  - nsatz.
  - f_equal; [nsatz|f_equal; [nsatz|f_equal; nsatz]].
  - apply mat_eq3; nsatz.
  - apply mat_eq3; lra.
Qed.
Print Assumptions C40_rotation_3D_unit.
Theorem C40_rotation_3D : forall t a, List.length a = 3%nat -> a <> [0; 0; 0] ->
  let Rm := rotation_matrix_3D t a false in let u := map (fun c => c / norm2 a) a in
  unit3 u /\ Rm = rotation_matrix_3D t u true /\ mapply 3 Rm a = a.
Proof.
  intros t a Hl Hne Rm u. destruct a as [|x [|y [|z [|? ?]]]]; try discriminate Hl.
  assert (0 < x * x + y * y + z * z) as Hp. { destruct (Req_dec x 0) as [->|]; [destruct (Req_dec y 0) as [->|]; [destruct (Req_dec z 0) as [->|]; [congruence|nra]|nra]|nra]. }
  assert (norm2 [x; y; z] = sqrt (x * x + y * y + z * z)) as En by (unfold norm2; cbn; f_equal; lra). set (n := norm2 [x; y; z]) in *. assert (0 < n) as Hn by (rewrite En; now apply sqrt_lt_R0). assert (n * n = x * x + y * y + z * z) as Hnn by (rewrite En; apply sqrt_sqrt; lra).
  assert (unit3 u) as Hu. { split; [reflexivity|]. unfold u, vget. cbn [map nth]. fold n. replace (x / n * (x / n) + y / n * (y / n) + z / n * (z / n)) with ((x * x + y * y + z * z) / (n * n)) by (field; lra). rewrite Hnn. field. lra. }
  split; [exact Hu|]. split; [reflexivity|]. change Rm with (rotation_matrix_3D t u true). destruct (C40_rotation_3D_unit t t u Hu) as (_ & _ & H & _). revert H.
  generalize (rotation_matrix_3D t u true) as M. intros M H. unfold u, mapply, vget in *. cbn [seq map rsum fold_right nth] in *. fold n in H. injection H as E0 E1 E2.
  assert (forall a b c w, a * (x / n) + (b * (y / n) + (c * (z / n) + 0)) = w / n -> a * x + (b * y + (c * z + 0)) = w) as K. { intros a b c w E. replace w with (w / n * n) by (field; lra). rewrite <- E. field. lra. }
  f_equal; [now apply K|f_equal; [now apply K|f_equal; now apply K]].
Qed.
Print Assumptions C40_rotation_3D.

(** ** trapz, cosspace, geomspace, clip *)
Theorem C40_trapz : forall x, lnp_trapz x false = map (fun i => (vget (S i) x + vget i x) / 2) (seq 0 (List.length x - 1)).
Proof.
  intros [|a x]; [reflexivity|]. unfold lnp_trapz. cbn [tl List.length]. rewrite Nat.sub_succ, Nat.sub_0_r. revert a. induction x as [|b x IH]; intro a; [reflexivity|]. cbn [map2 List.length seq map]. f_equal. rewrite IH. rewrite <- seq_shift, map_map. reflexivity.
Qed.
Print Assumptions C40_trapz.
(** with modify_endpoints the intervals and the two half end points add up to the sum of all samples *)
Lemma rsum_upd : forall i v (l : list R), (i < List.length l)%nat -> rsum (upd i v l) = rsum l - vget i l + v.
Proof. induction i as [|i IH]; intros v [|a l] H; cbn [List.length] in H; [lia| |lia|]; unfold vget, upd in *; cbn [rsum fold_right] in *; [cbn; unfold rsum; cbn; lra|]. fold (@upd R) in *. cbn [nth]. unfold rsum in *. cbn [fold_right]. specialize (IH v l). cbn. rewrite IH by lia. lra. Qed.
Theorem C40_trapz_total : forall x, (2 <= List.length x)%nat -> rsum (lnp_trapz x true) = rsum x.
Proof.
  intros x H. unfold lnp_trapz. cbn zeta. set (I := map2 _ _ _). assert (List.length I = List.length x - 1)%nat as LI. { change I with (lnp_trapz x false). rewrite C40_trapz, map_length, seq_length. reflexivity. }
  rewrite rsum_upd by (rewrite upd_length; lia). rewrite rsum_upd by lia.
  assert (rsum I = rsum x - vget 0 x / 2 - vget (List.length x - 1) x / 2) as ->.
  { unfold I. clear. destruct x as [|a x]; [cbn; lra|]. cbn [tl List.length]. rewrite Nat.sub_succ, Nat.sub_0_r. revert a. induction x as [|b x IH]; intro a; [cbn; unfold vget; cbn; lra|]. cbn [map2 List.length]. unfold rsum in *. cbn [fold_right]. rewrite IH. unfold vget. cbn [nth]. cbn [fold_right]. lra. }
  lra.
Qed.
Print Assumptions C40_trapz_total.
Lemma linspace_ends : forall a b n, (2 <= n)%nat -> List.length (linspace a b n) = n /\ vget 0 (linspace a b n) = a /\ vget (n - 1) (linspace a b n) = b.
Proof.
  intros a b n H. destruct n as [|[|n]]; [lia|lia|]. unfold linspace, vget. split; [now rewrite map_length, seq_length|]. split; [cbn; lra|].
  rewrite nth_map_in with (d' := 0%nat) by (rewrite seq_length; lia). rewrite seq_nth by lia. cbn [plus]. rewrite !S_INR. replace (S (S n) - 1)%nat with (S n) by lia. rewrite S_INR. pose proof (pos_INR n). field. lra.
Qed.
Theorem C40_cosspace : forall a b n, (2 <= n)%nat -> a <= b -> List.length (cosspace a b n) = n /\ vget 0 (cosspace a b n) = a /\ vget (n - 1) (cosspace a b n) = b /\ (forall y, In y (cosspace a b n) -> a <= y <= b).
Proof.
  intros a b n H Hab. destruct (linspace_ends PI 0 n H) as (L & E0 & E1). unfold cosspace. split; [now rewrite map_length|]. split; [|split].
  - unfold vget in *. rewrite nth_map_in with (d' := 0) by lia. rewrite E0, cos_PI. lra.
  - unfold vget in *. rewrite nth_map_in with (d' := 0) by lia. rewrite E1, cos_0. lra.
  - intros y Hy. apply in_map_iff in Hy. destruct Hy as (t & <- & _). pose proof (COS_bound t). nra.
Qed.
Print Assumptions C40_cosspace.
(** the CasADi branch of geomspace returns evenly spaced numbers, not a geometric progression *)
Theorem C40_geomspace_linear : forall a b n, 0 < a -> 0 < b -> geomspace a b n = Ok (linspace a b n).
Proof.
  intros a b n Ha Hb. unfold geomspace. destruct (Rle_dec a 0); [lra|]. destruct (Rle_dec b 0); [lra|]. f_equal. rewrite <- map_id. apply map_ext. intro t. rewrite ln_exp. field. assert (0 < ln 10) by (rewrite <- ln_1; apply ln_increasing; lra). lra.
Qed.
Theorem C40_geomspace_refuted : exists r, geomspace 1 4 3 = Ok r /\ vget 1 r * vget 1 r <> vget 0 r * vget 2 r.
Proof. eexists. split; [apply C40_geomspace_linear; lra|]. unfold linspace, vget. cbn. lra. Qed.
Theorem C40_logspace : forall a b n, map ln (logspace a b n) = map (fun t => t * ln 10) (linspace a b n).
Proof. intros. unfold logspace. rewrite map_map. apply map_ext. intro t. apply ln_exp. Qed.
Print Assumptions C40_logspace.
Theorem C40_clip : forall x mn mx, mn <= mx -> mn <= clip x mn mx <= mx /\ (mn <= x <= mx -> clip x mn mx = x) /\ (x < mn -> clip x mn mx = mn) /\ (mx < x -> clip x mn mx = mx).
Proof. intros x mn mx H. unfold clip, Rmin, Rmax. repeat destruct (Rle_dec _ _); repeat split; intros; try lra. Qed.
Print Assumptions C40_clip.

(** the hypotheses are met: a matrix of two rows, a grid of three points, an axis that is not a unit vector *)
Example C40_nonvacuous :
  (exists x, lnp_stack [[1; 2; 3]; [4; 5; 6]] 0 = Ok x /\ cr x = 2%nat /\ ce x 1 2 = 6) /\ lnp_split_int [1; 2; 3; 4] 2 = Ok [[1; 2]; [3; 4]] /\ lnp_split_list [1; 2; 3] [1%nat] = Ok [[1]; [2; 3]] /\
  (exists y, lnp_interp 3 [0; 2; 4] [0; 10; 30] None None = Ok y /\ y = 20) /\ unit3 [3 / 5; 0; 4 / 5] /\ lnp_roll [1; 2; 3] 1 = Ok [3; 1; 2] /\ lnp_diff [1; 4; 9] 1 = [4 - 1; 9 - 4].
Proof.
  split; [eexists; split; [reflexivity|split; reflexivity]|]. split; [reflexivity|]. split; [reflexivity|]. split.
  - assert (strictly_inc [0; 2; 4]) as Hi by (apply increasing_ok; cbn; destruct (Rlt_dec 0 2); [|lra]; destruct (Rlt_dec 2 4); [reflexivity|lra]).
    destruct (C40_interp 3 [0; 2; 4] [0; 10; 30] None None) as [H _]; [cbn; lia|reflexivity|]. destruct (H Hi) as (y & E & _ & _ & S). exists y. split; [exact E|]. rewrite (S 1%nat); [unfold vget; cbn; lra|cbn; lia|unfold vget; cbn; lra].
  - split; [split; [reflexivity|unfold vget; cbn; lra]|]. split; reflexivity.
Qed.
(** one point: the start; no point: nothing.  For cosspace the single point is the start of the interval too. *)
Theorem C40_spacing_one : forall a b, linspace a b 1 = [a] /\ linspace a b 0 = [] /\ logspace a b 1 = [exp (a * ln 10)] /\ cosspace a b 1 = [a].
Proof. intros a b. repeat split. unfold cosspace. cbn [linspace map]. rewrite cos_PI. f_equal. field. Qed.
Print Assumptions C40_spacing_one.
