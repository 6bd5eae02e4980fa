(** C40: the CasADi array layer computes what numpy computes (and where it does not). *)
From Verif Require Import Base RBase UtilsModel UtilsProofs UtilsProofs2 CollocProofs CasModel CasSpec.

Section PyInd.
Variable P : pyarg -> Prop.
Hypotheses (H1 : P Cas) (H2 : P Plain) (H3 : forall l, Forall P l -> P (Listed l)).
Fixpoint pyarg_ind2 (v : pyarg) : P v := match v with Cas => H1 | Plain => H2 | Listed l => H3 l ((fix go l := match l return Forall P l with [] => Forall_nil _ | a :: r => Forall_cons a (pyarg_ind2 a) (go r) end) l) end.
End PyInd.
(** the dispatch test finds a CasADi object at any nesting depth, and nothing else *)
Theorem C40_is_casadi : forall v, (is_casadi_type true v = true <-> reaches_casadi v) /\ (is_casadi_type false v = true <-> v = Cas).
Proof.
  intro v. split; [|destruct v; cbn; split; congruence]. induction v as [| |l IH] using pyarg_ind2.
  - split; [intros _; constructor|reflexivity].
  - split; [discriminate|intro H; inversion H].
  - cbn [is_casadi_type]. rewrite existsb_exists. rewrite Forall_forall in IH. split.
    + intros (x & Hx & E). apply rc_in with x; [assumption|]. now apply IH.
    + intro H. inversion H as [|x l' Hin Hr]; subst. exists x. split; [assumption|]. now apply IH.
Qed.
Print Assumptions C40_is_casadi.

(** ** diff *)
Lemma cas_diff_ok : forall a, cas_diff a = map (fun i => vget (S i) a - vget i a) (seq 0 (List.length a - 1)).
Proof.
  intros [|a0 a]; [reflexivity|]. cbn [cas_diff List.length]. rewrite Nat.sub_succ, Nat.sub_0_r. revert a0. induction a as [|b a IH]; intro a0; [reflexivity|]. cbn [map2 List.length seq map]. f_equal. rewrite IH. rewrite <- seq_shift, map_map. reflexivity.
Qed.
Lemma lnp_diff_eq : forall a n, lnp_diff a (S n) = cas_diff a.
Proof. intros a n. unfold lnp_diff. cbn [seq fold_left]. generalize 1%nat as o. induction n as [|n IH]; intro o; [reflexivity|]. cbn [seq fold_left]. apply IH. Qed.
Theorem C40_diff : forall a n, (n <= 1)%nat -> lnp_diff a n = np_diff a n.
Proof. intros a [|[|n]] H; [reflexivity| |lia]. rewrite lnp_diff_eq, cas_diff_ok. reflexivity. Qed.
Print Assumptions C40_diff.
(** every order above 1 returns the first differences; numpy's result is shorter *)
Lemma np_diff_length : forall a n, List.length (np_diff a n) = (List.length a - n)%nat.
Proof. intros a n. induction n as [|n IH]; [cbn; lia|]. cbn [np_diff]. rewrite map_length, seq_length, IH. lia. Qed.
Theorem C40_diff_refuted : forall a n, (2 <= n)%nat -> (2 <= List.length a)%nat -> lnp_diff a n <> np_diff a n.
Proof.
  intros a n Hn Ha E. apply (f_equal (@List.length R)) in E. rewrite np_diff_length in E. destruct n as [|n]; [lia|]. rewrite lnp_diff_eq, cas_diff_ok, map_length, seq_length in E. lia.
Qed.
Print Assumptions C40_diff_refuted.

(** ** roll *)
Theorem C40_roll_one : forall a, a <> [] -> lnp_roll a 1 = Ok (np_roll a 1).
Proof.
  intros a Ha. assert (0 < List.length a)%nat as Hl by (destruct a; [contradiction|cbn; lia]). set (n := List.length a) in *. unfold lnp_roll, row_at. fold n.
  replace (Z.leb (- Z.of_nat n) (- (1)) && Z.ltb (- (1)) (Z.of_nat n))%bool with true by (symmetry; apply andb_true_intro; split; [apply Z.leb_le; lia|apply Z.ltb_lt; lia]).
  cbn [bind]. replace (Z.ltb (- (1)) 0) with true by reflexivity. f_equal. unfold np_roll. fold n. unfold py_bound. replace (Z.ltb (- (1)) 0) with true by reflexivity. replace (Z.to_nat (Z.of_nat n + - (1))) with (n - 1)%nat by lia.
  apply list_eq_nth with (d := 0).
  - cbn [List.length]. rewrite firstn_length, map_length, seq_length. fold n. lia.
  - intros i Hi. cbn [List.length] in Hi. rewrite firstn_length in Hi. fold n in Hi. assert (i < n)%nat as Hi' by lia.
    rewrite (nth_indep (map _ _) 0 ((fun i => vget (Z.to_nat ((Z.of_nat i - 1) mod Z.of_nat n)) a) 0%nat)) by (now rewrite map_length, seq_length). rewrite (map_nth (fun i => vget (Z.to_nat ((Z.of_nat i - 1) mod Z.of_nat n)) a)), seq_nth by assumption. cbn [plus].
    destruct i as [|i]; cbn [nth].
    + f_equal. cbn [Z.of_nat]. replace (0 - 1)%Z with (-1)%Z by lia. destruct (Nat.eq_dec n 1) as [E|E]; [rewrite E; reflexivity|]. replace ((-1) mod Z.of_nat n)%Z with (Z.of_nat n - 1)%Z; [lia|]. apply (Z.mod_unique _ _ (-1)); [left; lia|lia].
    + rewrite Z.mod_small by lia. change (vget i (firstn (n - 1) a) = vget (Z.to_nat (Z.of_nat (S i) - 1)) a). replace (Z.to_nat (Z.of_nat (S i) - 1)) with i by lia.
      unfold vget. rewrite <- (firstn_skipn (n - 1) a) at 2. rewrite app_nth1; [reflexivity|]. rewrite firstn_length. fold n. lia.
Qed.
Print Assumptions C40_roll_one.
(** a shift of 2 up to the length loses elements; a shift of 0 or minus one too *)
Theorem C40_roll_refuted : forall a s, (2 <= s <= Z.of_nat (List.length a))%Z -> exists r, lnp_roll a s = Ok r /\ (List.length r < List.length (np_roll a s))%nat.
Proof.
  intros a s Hs. unfold lnp_roll, row_at. set (n := List.length a) in *.
  replace (Z.leb (- Z.of_nat n) (- s) && Z.ltb (- s) (Z.of_nat n))%bool with true by (symmetry; apply andb_true_intro; split; [apply Z.leb_le; lia|apply Z.ltb_lt; lia]).
  cbn [bind]. eexists. split; [reflexivity|]. unfold np_roll. rewrite map_length, seq_length. fold n. cbn [List.length]. rewrite firstn_length. fold n. unfold py_bound. destruct (Z.ltb_spec (- s) 0); lia.
Qed.
Print Assumptions C40_roll_refuted.
Theorem C40_roll_zero_refuted : lnp_roll [1; 2; 3] 0 = Ok [1] /\ np_roll [1; 2; 3] 0 = [1; 2; 3] /\ lnp_roll [1; 2; 3] (-1) = Ok [2; 1] /\ np_roll [1; 2; 3] (-1) = [2; 3; 1].
Proof. repeat split; reflexivity. Qed.
(** rolling the rows of a matrix fails or returns a single row, for every matrix of two rows or more; it fails for every shift but (number of rows) - 1 *)
Theorem C40_roll_rows_refuted : forall a s, (2 <= List.length a)%nat -> (1 <= s <= List.length a)%nat ->
  (s + 1 <> List.length a -> lnp_roll_rows a s = Raise RuntimeError)%nat /\ (s + 1 = List.length a -> lnp_roll_rows a s = Ok [nth 1 a [] ++ nth 0 a []])%nat.
Proof.
  intros a s Ha Hs. unfold lnp_roll_rows. destruct (Nat.eqb_spec (List.length a - s) 1) as [E|E]; split; intro H; try lia; [now rewrite E|reflexivity].
Qed.
Print Assumptions C40_roll_rows_refuted.

(** ** sums and means *)
Theorem C40_sum : forall x, exists t r c, lnp_sum x ANone = Ok t /\ cr t = 1%nat /\ cc t = 1%nat /\ ce t 0 0 = total x /\
  lnp_sum x A0 = Ok c /\ cr c = cc x /\ cc c = 1%nat /\ (forall j, (j < cc x)%nat -> ce c j 0 = rsum (map (fun i => ce x i j) (seq 0 (cr x)))) /\
  lnp_sum x A1 = Ok r /\ cr r = cr x /\ cc r = 1%nat /\ (forall i, (i < cr x)%nat -> ce r i 0 = rsum (map (fun j => ce x i j) (seq 0 (cc x)))).
Proof.
  intro x. do 3 eexists. split; [reflexivity|]. split; [reflexivity|]. split; [reflexivity|]. split.
  - cbn. unfold total. generalize (seq 0 (cr x)) as rs, (seq 0 (cc x)) as cs. induction rs as [|i rs IH]; intro cs; cbn [map rsum fold_right].
    + induction cs as [|c cs IHc]; cbn [map rsum fold_right] in *; [reflexivity|]. unfold rsum in *. cbn [fold_right] in *. lra.
    + unfold rsum in *. cbn [fold_right] in *. rewrite <- (IH cs). clear IH. induction cs as [|c cs IHc]; cbn [map fold_right] in *; lra.
  - repeat (split; [reflexivity|]). intros; reflexivity.
Qed.
Print Assumptions C40_sum.
Theorem C40_mean : forall x, exists r c, lnp_mean x A0 = Ok c /\ cr c = cc x /\ cc c = 1%nat /\ (forall j, (j < cc x)%nat -> ce c j 0 = rsum (map (fun i => ce x i j) (seq 0 (cr x))) / INR (cr x)) /\
  lnp_mean x A1 = Ok r /\ cr r = cr x /\ cc r = 1%nat /\ (forall i, (i < cr x)%nat -> ce r i 0 = rsum (map (fun j => ce x i j) (seq 0 (cc x))) / INR (cc x)).
Proof. intro x. do 2 eexists. repeat (split; [reflexivity|]). intros; reflexivity. Qed.
Print Assumptions C40_mean.
(** without an axis: the mean for a column vector; for more columns a vector of column means comes back instead of a number *)
Theorem C40_mean_none : forall x, exists t, lnp_mean x ANone = Ok t /\ cr t = cc x /\ cc t = 1%nat /\ (cc x = 1%nat -> ce t 0 0 = total x / INR (cr x * cc x)).
Proof.
  intro x. eexists. split; [reflexivity|]. split; [reflexivity|]. split; [reflexivity|]. intro H. cbn. unfold total. rewrite H. cbn [seq map rsum fold_right]. rewrite Nat.mul_1_r.
  replace (rsum (map (fun i => ce x i 0 + 0) (seq 0 (cr x)))) with (rsum (map (fun i => ce x i 0%nat) (seq 0 (cr x)))) by (f_equal; apply map_ext; intro; lra). cbn. lra.
Qed.
Print Assumptions C40_mean_none.
Theorem C40_mean_none_refuted : forall x, (2 <= cc x)%nat -> exists t, lnp_mean x ANone = Ok t /\ cr t <> 1%nat.
Proof. intros x H. destruct (C40_mean_none x) as (t & E & R & _). exists t. split; [assumption|]. lia. Qed.
