(** Lemmas for the ModelSolver: the whole state is a function of the scales, bounds and objectives accepted so far. *)
From Verif Require Import Base RBase TreeModel UtilsModel UtilsProofs IoModel IoProofs AlgModel AlgSpec NlpModel NlpSpec NlpProofs NlpProofs2 NlpProps NlpProps2 AlgProofs AlgProps SolverModel SolverSpec.
From Coq Require Import Lia Lra.
Local Open Scope nat_scope.

Lemma NoDup_app_l : forall A (l m : list A), NoDup (l ++ m) -> NoDup l.
Proof. intros A l m H. induction l as [|a l IH]; [constructor|]. cbn in H. inversion H as [|? ? N H']; subst. constructor; [intro I; apply N; apply in_or_app; now left|auto]. Qed.
Lemma prob_reachable : forall p, prob_inv p -> p_triu p = None -> reachable (p_n p) p.
Proof.
  intros [n cs os tr s] I Et. cbn in Et. subst tr. destruct I as [Nc No Ls Fc Fo]. cbn in *.
  exists (PScales s :: map (fun kc => PAddC (fst kc) (snd kc)) cs ++ map (fun ko => PAddO (fst ko) (snd ko)) os). split.
  - constructor; [exact Ls|]. apply Forall_app. split; apply Forall_forall; intros op Hop; apply in_map_iff in Hop; destruct Hop as ([k c] & <- & Hin); cbn; [rewrite Forall_forall in Fc; apply (Fc _ Hin)|rewrite Forall_forall in Fo; apply (Fo _ Hin)].
  - cbn [prun fold_left]. unfold prun. rewrite fold_left_app. cbn [fold_left pstep]. rewrite set_scales_ok by (try apply make_prob_inv; exact Ls). cbn [keep make_prob p_n p_triu p_cons p_objs map].
    assert (forall cs2 cs1, NoDup (keys (cs1 ++ cs2)) -> Forall (fun kc => con_reg n s (snd kc)) (cs1 ++ cs2) ->
      fold_left pstep (map (fun kc => PAddC (fst kc) (snd kc)) cs2) {| p_n := n; p_cons := cs1; p_objs := []; p_triu := None; p_scales := s |} = {| p_n := n; p_cons := cs1 ++ cs2; p_objs := []; p_triu := None; p_scales := s |}) as A.
    { induction cs2 as [|[k c] cs2 IH]; intros cs1 N F; [now rewrite app_nil_r|]. cbn [map fold_left pstep fst snd]. rewrite Forall_app in F. destruct F as [F1 F2]. apply Forall_cons_iff in F2. destruct F2 as [Fk F3]. cbn in Fk. destruct Fk as (Ca & Cn & Ce).
      assert (prob_inv {| p_n := n; p_cons := cs1; p_objs := []; p_triu := None; p_scales := s |}) as I1. { constructor; cbn; [unfold keys in *; rewrite map_app in N; eapply NoDup_app_l; exact N|constructor|exact Ls|exact F1|constructor]. }
      destruct (add_constraints_spec _ k c I1 Ca) as [_ H2]. rewrite H2; [|cbn; unfold keys in N; rewrite map_app in N; apply NoDup_remove_2 in N; intro Hin; apply N; apply in_or_app; now left|exact Cn].
      unfold set_cons; cbn [keep p_n p_cons p_objs p_triu p_scales]. rewrite <- Ce. rewrite IH; [now rewrite <- app_assoc|now rewrite <- app_assoc|]. apply Forall_app. split; [apply Forall_app; split; [exact F1|constructor; [|constructor]]|exact F3]. split; [exact Ca|]. split; assumption. }
    rewrite A by (cbn; assumption). cbn [app].
    assert (forall os2 os1, NoDup (keys (os1 ++ os2)) -> Forall (fun ko => obj_reg n s (snd ko)) (os1 ++ os2) ->
      fold_left pstep (map (fun ko => PAddO (fst ko) (snd ko)) os2) {| p_n := n; p_cons := cs; p_objs := os1; p_triu := None; p_scales := s |} = {| p_n := n; p_cons := cs; p_objs := os1 ++ os2; p_triu := None; p_scales := s |}) as B.
    { induction os2 as [|[k o] os2 IH]; intros os1 N F; [now rewrite app_nil_r|]. cbn [map fold_left pstep fst snd]. rewrite Forall_app in F. destruct F as [F1 F2]. apply Forall_cons_iff in F2. destruct F2 as [Fk F3]. cbn in Fk. destruct Fk as (Ca & Ce).
      assert (prob_inv {| p_n := n; p_cons := cs; p_objs := os1; p_triu := None; p_scales := s |}) as I1. { constructor; cbn; [exact Nc|unfold keys in *; rewrite map_app in N; eapply NoDup_app_l; exact N|exact Ls|exact Fc|exact F1]. }
      destruct (add_objective_spec _ k o I1 Ca) as [_ H2]. rewrite H2; [|cbn; unfold keys in N; rewrite map_app in N; apply NoDup_remove_2 in N; intro Hin; apply N; apply in_or_app; now left].
      unfold set_objs; cbn [keep p_n p_cons p_objs p_triu p_scales]. rewrite <- Ce. rewrite IH; [now rewrite <- app_assoc|now rewrite <- app_assoc|]. apply Forall_app. split; [apply Forall_app; split; [exact F1|constructor; [|constructor]]|exact F3]. split; assumption. }
    rewrite B by (cbn; assumption). reflexivity.
Qed.

Section Sol.
Variable nm : string -> list string.
Hypothesis HN : names_ok nm.
Notation ns := (List.length (nm "states")).
Notation ni := (List.length (nm "inputs")).
Notation nc := (List.length (nm "con_outputs")).
Notation nr := (List.length (nm "residuals")).

(** a vector given by name *)
Definition byname {A} (f : string -> string -> A) : list A := flat_map (fun g => map (f g) (nm g)) flat_groups.
Lemma byname_len : forall A (f : string -> string -> A), List.length (byname f) = num_implicit_var nm.
Proof using. intros A f. unfold byname, num_implicit_var, flat_groups. cbn [flat_map]. now rewrite !app_length, !map_length. Qed.
Lemma byname_nth : forall A (f : string -> string -> A) g n i, In g flat_groups -> nth_error (nm g) i = Some n -> nth_error (byname f) (i + off nm g) = Some (f g n).
Proof using HN.
  intros A f g n i Hg Hn. pose proof (len_sd nm HN) as L. assert (i < List.length (nm g)) as Hi by (apply nth_error_Some; congruence).
  unfold byname, flat_groups, off in *. cbn [flat_map]. rewrite app_nil_r.
  destruct Hg as [<-|[<-|[<-|[<-|[]]]]]; cbn [String.eqb Ascii.eqb Bool.eqb].
  - rewrite nth_error_app1 by (rewrite map_length; lia). rewrite Nat.add_0_r. now apply map_nth_error.
  - rewrite nth_error_app2 by (rewrite map_length; lia). rewrite map_length. replace (i + ns - ns) with i by lia. rewrite nth_error_app1 by (rewrite map_length; lia). now apply map_nth_error.
  - rewrite nth_error_app2 by (rewrite map_length; lia). rewrite map_length. rewrite nth_error_app2 by (rewrite map_length; lia). rewrite map_length. replace (i + (ns + ni) - ns - ni) with i by lia. rewrite nth_error_app1 by (rewrite map_length; lia). now apply map_nth_error.
  - rewrite nth_error_app2 by (rewrite map_length; lia). rewrite map_length. rewrite nth_error_app2 by (rewrite map_length; lia). rewrite map_length. rewrite nth_error_app2 by (rewrite map_length, L; lia). rewrite map_length, L. replace (i + (ns + ni + ns) - ns - ni - ns) with i by lia. now apply map_nth_error.
Qed.
(** every position belongs to exactly one variable *)
Lemma position : forall j, j < num_implicit_var nm -> exists g n i, In g flat_groups /\ nth_error (nm g) i = Some n /\ j = i + off nm g.
Proof using HN.
  intros j Hj. rewrite (nvar nm HN) in Hj. pose proof (len_sd nm HN) as L.
  assert (forall g, In g flat_groups -> off nm g <= j < off nm g + List.length (nm g) -> exists g n i, In g flat_groups /\ nth_error (nm g) i = Some n /\ j = i + off nm g) as F.
  { intros g Hg H. destruct (nth_error (nm g) (j - off nm g)) as [n|] eqn:E; [|apply nth_error_None in E; lia]. exists g, n, (j - off nm g). repeat split; [assumption|assumption|lia]. }
  destruct (Nat.lt_ge_cases j ns); [apply (F "states"); [cbn; tauto|cbn; lia]|]. destruct (Nat.lt_ge_cases j (ns + ni)); [apply (F "inputs"); [cbn; tauto|cbn; lia]|].
  destruct (Nat.lt_ge_cases j (ns + ni + ns)); [apply (F "states_dot"); [cbn; tauto|cbn; lia]|]. apply (F "con_outputs"); [cbn; tauto|cbn; lia].
Qed.
Lemma nth_in_range : forall g n i, In g flat_groups -> nth_error (nm g) i = Some n -> i + off nm g < num_implicit_var nm.
Proof using HN. intros g n i Hg Hn. rewrite <- (byname_len _ (fun _ _ => 0)). apply nth_error_Some. rewrite (byname_nth _ _ g n i Hg Hn). discriminate. Qed.
Lemma off_inj : forall g n i g' n' i', In g flat_groups -> In g' flat_groups -> nth_error (nm g) i = Some n -> nth_error (nm g') i' = Some n' -> i + off nm g = i' + off nm g' -> g = g' /\ n = n'.
Proof using HN.
  intros g n i g' n' i' Hg Hg' Hn Hn' E. pose proof (byname_nth _ (fun g n => (g, n)) g n i Hg Hn) as A. pose proof (byname_nth _ (fun g n => (g, n)) g' n' i' Hg' Hn') as B. rewrite E in A. rewrite A in B. injection B as <- <-. now split.
Qed.
Lemma byname_override : forall A (f : string -> string -> A) g n v i, In g flat_groups -> nth_error (nm g) i = Some n -> upd (i + off nm g) v (byname f) = byname (override f g n v).
Proof using HN.
  intros A f g n v i Hg Hn. apply nth_error_ext. intro j. destruct (Nat.lt_ge_cases j (num_implicit_var nm)) as [Hj|Hj].
  - destruct (position j Hj) as (g' & n' & i' & Hg' & Hn' & ->). rewrite (byname_nth _ (override f g n v) g' n' i' Hg' Hn'). unfold override.
    destruct (Nat.eq_dec (i' + off nm g') (i + off nm g)) as [E|E].
    + destruct (off_inj _ _ _ _ _ _ Hg' Hg Hn' Hn E) as [-> ->]. rewrite !String.eqb_refl. cbn [andb]. rewrite E. assert (i + off nm g < List.length (byname f)) as L by (rewrite byname_len; eapply nth_in_range; eauto). clear - L. revert L. generalize (byname f) as l. generalize (i + off nm g) as k. induction k as [|k IH]; intros [|a l] L; cbn in *; try lia; [reflexivity|]. apply IH. lia.
    + assert ((String.eqb g' g && String.eqb n' n)%bool = false) as ->.
      { apply Bool.not_true_is_false. intro T. apply Bool.andb_true_iff in T. destruct T as [T1 T2]. apply String.eqb_eq in T1, T2. subst. apply E. f_equal. assert (NoDup (nm g)) as ND by (destruct HN as (_ & ND & _); apply ND; now right). rewrite NoDup_nth_error in ND. apply ND; [apply nth_error_Some; congruence|congruence]. }
      rewrite <- (byname_nth _ f g' n' i' Hg' Hn'). generalize (byname f) as l. revert E. generalize (i + off nm g) as k, (i' + off nm g') as j. clear. induction k as [|k IH]; intros [|j] N [|a l]; cbn; try reflexivity; try congruence. apply IH. congruence.
  - rewrite !(proj2 (nth_error_None _ _)); [reflexivity| |]; [now rewrite byname_len|]. assert (List.length (upd (i + off nm g) v (byname f)) = List.length (byname f)) as ->; [|now rewrite byname_len]. generalize (byname f) as l. generalize (i + off nm g) as k. clear. induction k as [|k IH]; intros [|a l]; cbn; auto.
Qed.

(** lookups by name *)
Lemma enum_nodup : NoDup (input_names nm).
Proof using HN.
  apply NoDup_nth_error. intros j k Hj E. change (input_names nm) with (byname svname) in *. rewrite byname_len in Hj.
  destruct (position j Hj) as (g & n & i & Hg & Hn & ->). rewrite (byname_nth _ _ g n i Hg Hn) in E. symmetry in E. assert (k < num_implicit_var nm) as Hk by (rewrite <- (byname_len _ svname); apply nth_error_Some; congruence).
  destruct (position k Hk) as (g' & n' & i' & Hg' & Hn' & ->). rewrite (byname_nth _ _ g' n' i' Hg' Hn') in E. injection E as E.
  assert (forall g, In g flat_groups -> no_char dot g = true) as P by (intros h [<-|[<-|[<-|[<-|[]]]]]; reflexivity).
  destruct (prefixed_inj g' n' g n (P _ Hg') (P _ Hg) E) as [-> ->]. f_equal. assert (NoDup (nm g)) as ND by (destruct HN as (_ & ND & _); apply ND; now right). rewrite NoDup_nth_error in ND. apply ND; [apply nth_error_Some; congruence|congruence].
Qed.
Lemma enum_idx : forall g n i, In g flat_groups -> nth_error (nm g) i = Some n -> enum_get (svname g n) (input_names nm) = Ok (i + off nm g).
Proof using HN.
  intros g n i Hg Hn. unfold enum_get. rewrite (index_of_nth _ enum_nodup (i + off nm g) (svname g n)); [reflexivity|]. change (input_names nm) with (byname svname). now apply byname_nth.
Qed.
Lemma enum_none : forall g n, no_char dot g = true -> ~ is_variable nm g n -> enum_get (svname g n) (input_names nm) = Raise KeyError.
Proof using.
  intros g n Pg H. unfold enum_get. destruct (index_of (svname g n) (input_names nm)) as [j|] eqn:E; [|reflexivity]. exfalso. apply H. apply index_of_lt in E. destruct E as [_ E]. apply nth_error_In in E. unfold input_names in E. apply in_flat_map in E. destruct E as (g' & Hg' & E). apply in_map_iff in E. destruct E as (n' & E & Hn').
  assert (forall g, In g flat_groups -> no_char dot g = true) as P by (intros h [<-|[<-|[<-|[<-|[]]]]]; reflexivity).
  destruct (prefixed_inj g' n' g n (P _ Hg') Pg E) as [-> ->]. now split.
Qed.
Lemma variable_nth : forall g n, is_variable nm g n -> exists i, nth_error (nm g) i = Some n.
Proof using. intros g n [_ H]. now apply In_nth_error. Qed.
Lemma variable_dec : forall g n, is_variable nm g n \/ ~ is_variable nm g n.
Proof using. intros g n. unfold is_variable. destruct (in_dec string_dec g flat_groups); [|tauto]. destruct (in_dec string_dec n (nm g)); tauto. Qed.

(** the scales *)
Definition vs_of (sc : string -> string -> R) : dict (dict R) := map (fun g => (g, map (fun n => (n, sc g n)) (nm g))) flat_groups.
Definition cs_of (sc : string -> string -> R) : list R := map (sc "states") (nm "states") ++ map (sc "con_outputs") (nm "con_outputs") ++ ones nr.
Lemma dget_names : forall A (f : string -> A) l n, In n l -> dget n (map (fun n => (n, f n)) l) = Some (f n).
Proof using. intros A f l n H. induction l as [|m l IH]; [contradiction|]. cbn. destruct (String.eqb_spec n m) as [->|N]; [reflexivity|]. apply IH. destruct H; [congruence|assumption]. Qed.
Lemma vs_get : forall sc g, In g flat_groups -> dget g (vs_of sc) = Some (map (fun n => (n, sc g n)) (nm g)).
Proof using. intros sc g Hg. unfold vs_of. now apply (dget_names (dict R) (fun g => map (fun n => (n, sc g n)) (nm g))). Qed.
Lemma var_scale_ok : forall sc g n, is_variable nm g n -> var_scale (vs_of sc) g n = Ok (sc g n).
Proof using. intros sc g n [Hg Hn]. unfold var_scale, lookup_err. rewrite vs_get by exact Hg. cbn [bind]. now rewrite dget_names. Qed.
Lemma dset_names : forall (f : string -> R) l n v, NoDup l -> In n l -> dset n v (map (fun n => (n, f n)) l) = map (fun m => (m, if String.eqb m n then v else f m)) l.
Proof using.
  intros f l n v ND H. induction l as [|m l IH]; [contradiction|]. inversion ND as [|? ? N1 N2]; subst. cbn. destruct (String.eqb_spec n m) as [->|N].
  - rewrite String.eqb_refl. f_equal. apply map_ext_in. intros k Hk. destruct (String.eqb_spec k m) as [->|_]; [contradiction|reflexivity].
  - destruct (String.eqb_spec m n) as [E|_]; [congruence|]. f_equal. apply IH; [assumption|]. destruct H; [congruence|assumption].
Qed.
Lemma vs_override : forall sc g n v, is_variable nm g n -> dset g (dset n v (map (fun n => (n, sc g n)) (nm g))) (vs_of sc) = vs_of (override sc g n v).
Proof using HN.
  intros sc g n v [Hg Hn]. rewrite dset_names by (try assumption; destruct HN as (_ & ND & _); apply ND; now right). unfold vs_of, override, flat_groups in *. cbn [map].
  destruct Hg as [<-|[<-|[<-|[<-|[]]]]]; cbn; reflexivity.
Qed.
Lemma fold_write : forall sc g pre mid rest, In g flat_groups -> List.length mid = List.length (nm g) -> List.length pre = off nm g ->
  foldM (fun ds n => bind (var_scale (vs_of sc) g n) (fun v => bind (get_var_index_in_flat nm g n) (fun i => np_set ds i v))) (nm g) (pre ++ mid ++ rest) = Ok (pre ++ map (sc g) (nm g) ++ rest).
Proof using HN.
  intros sc g pre mid rest Hg Lm Lp.
  assert (forall l2 l1 mid, nm g = l1 ++ l2 -> List.length mid = List.length l2 -> foldM (fun ds n => bind (var_scale (vs_of sc) g n) (fun v => bind (get_var_index_in_flat nm g n) (fun i => np_set ds i v))) l2 (pre ++ map (sc g) l1 ++ mid ++ rest) = Ok (pre ++ map (sc g) (l1 ++ l2) ++ rest)) as F.
  { induction l2 as [|n l2 IH]; intros l1 m E L; [destruct m; [|discriminate]; now rewrite app_nil_r|]. destruct m as [|a m]; [discriminate|]. cbn [foldM]. rewrite var_scale_ok by (split; [exact Hg|rewrite E; apply in_or_app; right; now left]). cbn [bind].
    rewrite (var_index nm HN g n (List.length l1) Hg) by (rewrite E, nth_error_app2, Nat.sub_diag by lia; reflexivity). cbn [bind]. unfold np_set.
    assert (List.length l1 + off nm g < List.length (pre ++ map (sc g) l1 ++ (a :: m) ++ rest)) as Hlt by (rewrite !app_length, map_length; cbn; lia). apply Nat.ltb_lt in Hlt. rewrite Hlt.
    assert (upd (List.length l1 + off nm g) (sc g n) (pre ++ map (sc g) l1 ++ (a :: m) ++ rest) = pre ++ map (sc g) (l1 ++ [n]) ++ m ++ rest) as ->.
    { rewrite map_app, <- app_assoc, !(app_assoc pre). replace (List.length l1 + off nm g) with (List.length (pre ++ map (sc g) l1)) by (rewrite app_length, map_length; lia). generalize (pre ++ map (sc g) l1) as q. clear. induction q as [|b q IH]; [reflexivity|]. cbn in *. now rewrite IH. }
    rewrite IH; [now rewrite <- app_assoc|now rewrite <- app_assoc|now injection L]. }
  apply (F (nm g) [] mid eq_refl Lm).
Qed.
Lemma split_len : forall A k (l : list A), k <= List.length l -> exists a b, l = a ++ b /\ List.length a = k.
Proof using. intros A k l H. exists (firstn k l), (skipn k l). split; [symmetry; apply firstn_skipn|]. rewrite firstn_length. lia. Qed.
Lemma write_all : forall sc ds, List.length ds = num_implicit_var nm -> write_scales nm (vs_of sc) ds = Ok (byname sc).
Proof using HN.
  intros sc ds L. rewrite (nvar nm HN) in L. pose proof (len_sd nm HN) as Ld.
  destruct (split_len _ ns ds ltac:(lia)) as (d1 & r1 & -> & L1). rewrite app_length in L. destruct (split_len _ ni r1 ltac:(lia)) as (d2 & r2 & -> & L2). rewrite app_length in L. destruct (split_len _ ns r2 ltac:(lia)) as (d3 & d4 & -> & L3). rewrite app_length in L.
  unfold write_scales, byname. cbn [flat_groups foldM flat_map]. rewrite app_nil_r.
  pose proof (fold_write sc "states" [] d1 (d2 ++ d3 ++ d4)) as W1. cbn [app] in W1. rewrite W1; [|cbn; tauto|lia|reflexivity].
  rewrite (fold_write sc "inputs" (map (sc "states") (nm "states")) d2 (d3 ++ d4)); [|cbn; tauto|lia|rewrite map_length; reflexivity].
  pose proof (fold_write sc "states_dot" (map (sc "states") (nm "states") ++ map (sc "inputs") (nm "inputs")) d3 d4) as W3. rewrite <- !app_assoc in W3. rewrite W3; [|cbn; tauto|lia|rewrite app_length, !map_length; reflexivity].
  pose proof (fold_write sc "con_outputs" (map (sc "states") (nm "states") ++ map (sc "inputs") (nm "inputs") ++ map (sc "states_dot") (nm "states_dot")) d4 []) as W4. rewrite <- !app_assoc, !app_nil_r in W4. rewrite W4; [reflexivity|cbn; tauto|lia|rewrite !app_length, !map_length, Ld; cbn; lia].
Qed.

(** the whole solver as a function of what was accepted *)
Variable forward : dict R -> dict R -> R -> result (dict R * dict R).
Variables (jac : list R -> list R) (hess : list R -> list R -> list R) (js hs : list nat * list nat).
Hypothesis HF : forward_ok nm forward 0%R.
Hypothesis HC : cas_ok nm jac hess js hs.
Definition c_base : bcon := {| c_nin := num_implicit_var nm; c_ncon := num_implicit_res nm; c_f := algebra_values forward nm; c_j := jac; c_h := hess; c_jr := fst js; c_jc := snd js; c_hr := fst hs; c_hc := snd hs; c_in := []; c_con := []; c_js := []; c_hs := [] |}.
Lemma alg_len : forall x, List.length x = num_implicit_var nm -> List.length (algebra_values forward nm x) = num_implicit_res nm.
Proof using HN HF. intros x L. destruct (C34_residual nm forward 0%R x HN HF L) as (? & ? & ? & ? & res & _ & _ & _ & E & LR & _). unfold algebra_values. now rewrite E. Qed.
Lemma c_base_wf : con_wf c_base.
Proof using HN HF HC. destruct HC as [(J1 & J2 & J3) (H1 & H2 & H3) JV HV]. constructor; cbn; auto. exact alg_len. Qed.
Lemma resc_wf : forall a b, con_wf (rescaled c_base a b).
Proof using HN HF HC. intros a b. eapply con_wf_same; [exact c_base_wf|reflexivity..]. Qed.
Definition idx_of (g n : string) : nat := match enum_get (svname g n) (input_names nm) with Ok i => i | Raise _ => 0 end.
Definition o_base (g n : string) (w : R) : bobj := {| o_nin := num_implicit_var nm; o_f := fun x => (w * vget (idx_of g n) x)%R; o_g := fun _ => upd (idx_of g n) w (zeros (num_implicit_var nm)); o_h := fun _ => []; o_hr := []; o_hc := []; o_in := []; o_hs := [] |}.
Definition objs_of (sc : string -> string -> R) (os : dict (string * string * R)) : dict bobj := map (fun kv => (fst kv, orescaled (o_base (fst (fst (snd kv))) (snd (fst (snd kv))) (snd (snd kv))) (byname sc))) os.
Definition prob_of (sc : string -> string -> R) (os : dict (string * string * R)) : prob :=
  {| p_n := num_implicit_var nm; p_cons := [("model_algebra", rescaled c_base (byname sc) (cs_of sc))]; p_objs := objs_of sc os; p_triu := None; p_scales := byname sc |}.
Definition state_of (sc : string -> string -> R) (bd : string -> string -> ebound * ebound) (os : dict (string * string * R)) : solver :=
  {| s_names := nm; s_enum := input_names nm; s_prob := prob_of sc os; s_lb := byname (fun g n => fst (bd g n)); s_ub := byname (fun g n => snd (bd g n)); s_ncon := num_implicit_res nm; s_vs := vs_of sc |}.
Definition objs_ok (os : dict (string * string * R)) : Prop := NoDup (keys os) /\ Forall (fun kv => is_variable nm (fst (fst (snd kv))) (snd (fst (snd kv)))) os.
Lemma cs_len : forall sc, List.length (cs_of sc) = num_implicit_res nm.
Proof using HN. intro sc. pose proof (len_sd nm HN) as L. unfold cs_of, num_implicit_res. rewrite !app_length, !map_length. unfold ones. rewrite repeat_length. lia. Qed.
Lemma keys_objs : forall sc os, keys (objs_of sc os) = keys os.
Proof using. intros sc os. unfold objs_of, keys. now rewrite map_map. Qed.
Lemma o_base_wf : forall g n w, obj_wf (num_implicit_var nm) (o_base g n w).
Proof using. intros g n w. constructor; cbn; auto. intros _ _. rewrite upd_length. apply repeat_length. Qed.
Lemma prob_of_inv : forall sc os, NoDup (keys os) -> prob_inv (prob_of sc os).
Proof using HN HF HC.
  intros sc os N. constructor; cbn [prob_of p_cons p_objs p_scales p_n].
  - repeat constructor. intros [].
  - now rewrite keys_objs.
  - apply byname_len.
  - repeat constructor; cbn [snd]; try apply resc_wf. cbn. apply cs_len.
  - unfold objs_of. apply Forall_forall. intros ko Hk. apply in_map_iff in Hk. destruct Hk as (kv & <- & _). cbn [snd]. apply obj_reg_args, o_base_wf.
Qed.
Lemma map_var_scale : forall sc g, In g flat_groups -> mapM (var_scale (vs_of sc) g) (nm g) = Ok (map (sc g) (nm g)).
Proof using. intros sc g Hg. apply mapM_map. intros n Hn. now apply var_scale_ok. Qed.
(** pushing the scales *)
Lemma update_ok : forall sc sc0 c0 bd os, NoDup (keys os) -> (forall a, con_wf (rescaled c_base a c0)) -> List.length c0 = num_implicit_res nm ->
  update_problem_scales {| s_names := nm; s_enum := input_names nm; s_prob := {| p_n := num_implicit_var nm; p_cons := [("model_algebra", rescaled c_base (byname sc0) c0)]; p_objs := objs_of sc0 os; p_triu := None; p_scales := byname sc0 |};
     s_lb := byname (fun g n => fst (bd g n)); s_ub := byname (fun g n => snd (bd g n)); s_ncon := num_implicit_res nm; s_vs := vs_of sc |} = Ok (state_of sc bd os).
Proof using HN HF HC.
  intros sc sc0 c0 bd os N W0 L0. unfold update_problem_scales. cbn [s_names s_vs s_prob p_cons p_scales p_n p_objs p_triu s_enum s_lb s_ub s_ncon].
  rewrite !map_var_scale by (cbn; tauto). cbn [bind]. unfold lookup_err. cbn [dget String.eqb Ascii.eqb Bool.eqb]. cbn [bind].
  change (map (sc "states") (nm "states") ++ map (sc "con_outputs") (nm "con_outputs") ++ ones nr) with (cs_of sc).
  rewrite set_con_ok; [|apply c_base_wf|cbn; apply byname_len|cbn; apply cs_len]. cbn [bind]. cbn [dset String.eqb Ascii.eqb Bool.eqb]. unfold set_cons. cbn [p_scales p_n p_objs p_triu].
  rewrite write_all by apply byname_len. cbn [bind].
  match goal with |- context [set_dec_var_scales ?p _] => assert (prob_inv p) as I end.
  { constructor; cbn [p_cons p_objs p_scales p_n].
    - repeat constructor. intros [].
    - now rewrite keys_objs.
    - apply byname_len.
    - repeat constructor; cbn [snd]; try apply resc_wf. cbn. apply cs_len.
    - unfold objs_of. apply Forall_forall. intros ko Hk. apply in_map_iff in Hk. destruct Hk as (kv & <- & _). cbn [snd]. apply obj_reg_args, o_base_wf. }
  rewrite set_scales_ok by (try exact I; cbn; apply byname_len). cbn [bind]. unfold with_prob. cbn [s_names s_vs s_prob s_enum s_lb s_ub s_ncon p_cons p_objs p_n p_triu map fst snd c_con].
  unfold state_of, prob_of. do 2 f_equal. f_equal. unfold objs_of. rewrite map_map. apply map_ext. reflexivity.
Qed.

(** steps *)
Lemma get_idx : forall sc bd os g n, is_variable nm g n -> exists i, nth_error (nm g) i = Some n /\ get_var_idx (state_of sc bd os) g n = Ok (i + off nm g).
Proof using HN. intros sc bd os g n V. destruct (variable_nth g n V) as [i Hi]. exists i. split; [assumption|]. unfold get_var_idx. cbn [state_of s_enum]. apply enum_idx; [apply V|assumption]. Qed.
Lemma get_idx_none : forall sc bd os g n, no_char dot g = true -> ~ is_variable nm g n -> get_var_idx (state_of sc bd os) g n = Raise KeyError.
Proof using. intros. unfold get_var_idx. now apply enum_none. Qed.
Lemma leb_below : forall lb ub, ebound_leb lb ub = true <-> below lb ub.
Proof using. intros [|x|] [|y|]; cbn; try (split; [intro; exact I|reflexivity]); try (split; [discriminate|contradiction]). destruct (Rle_dec x y); split; try tauto; discriminate. Qed.
Lemma bounds_step : forall sc bd os g n b, is_variable nm g n -> bound_ok nm g n b -> set_bounds (state_of sc bd os) g n b = Ok (state_of sc (override bd g n (bound_pair b)) os).
Proof using HN.
  intros sc bd os g n b V [_ B]. destruct (get_idx sc bd os g n V) as (i & Hi & E). unfold set_bounds. rewrite E. cbn [bind].
  assert (forall lb ub, ebound_leb lb ub = true -> bind (np_set (s_lb (state_of sc bd os)) (i + off nm g) lb) (fun l => bind (np_set (s_ub (state_of sc bd os)) (i + off nm g) ub) (fun u => Ok (with_bounds (state_of sc bd os) l u))) = Ok (state_of sc (override bd g n (lb, ub)) os)) as F.
  { intros lb ub _. unfold np_set. cbn [state_of s_lb s_ub]. rewrite !byname_len. assert (i + off nm g < num_implicit_var nm) as Hlt by (eapply nth_in_range; [apply V|exact Hi]). apply Nat.ltb_lt in Hlt. rewrite Hlt. cbn [bind]. rewrite !(byname_override _ _ g n _ i) by (try exact Hi; apply V). unfold with_bounds, state_of. cbn [s_names s_vs s_prob s_enum s_lb s_ub s_ncon]. f_equal. f_equal; unfold byname; apply flat_map_ext; intro g'; apply map_ext; intro n'; unfold override; now destruct (_ && _)%bool. }
  destruct b as [lb ub|v]; cbn [bound_pair].
  - apply leb_below in B. rewrite B. cbn [negb]. now apply F.
  - assert (ebound_leb (Fin v) (Fin v) = true) as Q by (cbn; destruct (Rle_dec v v) as [|N]; [reflexivity|exfalso; apply N; apply Rle_refl]). rewrite Q. cbn [negb]. now apply F.
Qed.
Lemma bounds_refused : forall sc bd os g n b, no_char dot g = true -> ~ bound_ok nm g n b -> set_bounds (state_of sc bd os) g n b = Raise (if in_dec string_dec g flat_groups then if in_dec string_dec n (nm g) then AssertionError else KeyError else KeyError).
Proof using HN.
  intros sc bd os g n b P B. unfold set_bounds. destruct (variable_dec g n) as [V|V].
  - destruct (get_idx sc bd os g n V) as (i & Hi & E). rewrite E. cbn [bind]. destruct b as [lb ub|v]; [|exfalso; apply B; now split]. destruct (ebound_leb lb ub) eqn:Q; [exfalso; apply B; split; [assumption|now apply leb_below]|]. cbn [negb]. destruct V as [V1 V2]. destruct (in_dec string_dec g flat_groups); [|contradiction]. destruct (in_dec string_dec n (nm g)); [reflexivity|contradiction].
  - rewrite get_idx_none by assumption. cbn [bind]. unfold is_variable in V. destruct (in_dec string_dec g flat_groups); [|reflexivity]. destruct (in_dec string_dec n (nm g)); [tauto|reflexivity].
Qed.
Lemma scale_step_ok : forall sc bd os g n v, NoDup (keys os) -> scale_ok nm g n v -> set_var_scale (state_of sc bd os) g n v = Ok (state_of (override sc g n v) bd os).
Proof using HN HF HC.
  intros sc bd os g n v N (Pv & Hg & Hn). assert (is_variable nm g n) as V by (split; [|exact Hn]; cbn in *; tauto).
  unfold set_var_scale. destruct (Rlt_dec 0 v); [|contradiction]. cbn [negb]. assert (mem g scale_groups = true) as -> by (now apply mem_In). cbn [negb state_of s_vs].
  unfold lookup_err. rewrite vs_get by apply V. cbn [bind]. unfold dmem. rewrite dget_names by exact Hn. cbn [negb].
  rewrite vs_override by exact V. unfold with_vs. cbn [state_of s_names s_vs s_prob s_enum s_lb s_ub s_ncon]. unfold prob_of. apply update_ok; [exact N|intro; apply resc_wf|apply cs_len].
Qed.
Lemma scale_step_refused : forall sc bd os g n v, ~ scale_ok nm g n v -> set_var_scale (state_of sc bd os) g n v = Raise (if Rlt_dec 0 v then KeyError else AssertionError).
Proof using.
  intros sc bd os g n v H. unfold set_var_scale. destruct (Rlt_dec 0 v) as [Pv|]; [|reflexivity]. cbn [negb]. destruct (mem g scale_groups) eqn:M; [|reflexivity]. cbn [negb]. apply mem_In in M. cbn [state_of s_vs]. unfold lookup_err.
  rewrite vs_get by (unfold scale_groups, flat_groups in *; cbn in *; tauto). cbn [bind]. unfold dmem. destruct (dget n _) eqn:D; [|reflexivity]. exfalso. apply H. split; [assumption|]. split; [exact M|].
  assert (In n (keys (map (fun n0 : string => (n0, sc g n0)) (nm g)))) as K by (apply dget_some_iff; eauto). unfold keys in K. rewrite map_map in K. cbn in K. now rewrite map_id in K.
Qed.
Lemma make_lin_obj : forall g n w i, enum_get (svname g n) (input_names nm) = Ok i -> make_obj (num_implicit_var nm) (fun x => (w * vget i x)%R) (fun _ => upd i w (zeros (num_implicit_var nm))) (fun _ => []) (Some ([], [])) = Ok (orescaled (o_base g n w) (ones (num_implicit_var nm))).
Proof using. intros g n w i E. unfold o_base, idx_of, orescaled. cbn [o_nin o_f o_g o_h o_hr o_hc]. rewrite E. reflexivity. Qed.
Variable show : R -> string.
Lemma obj_step_ok : forall sc bd os g n w, objs_ok os -> is_variable nm g n ->
  add_obj_from_var show (state_of sc bd os) g n w = (if in_dec string_dec (objective_name show g n w) (keys os) then Raise NameError else Ok (state_of sc bd (os ++ [(objective_name show g n w, (g, n, w))]), objective_name show g n w)).
Proof using HN HF HC.
  intros sc bd os g n w [N F] V. destruct (get_idx sc bd os g n V) as (i & Hi & E). unfold add_obj_from_var; change (obj_name show g n w) with (objective_name show g n w). rewrite E. cbn [bind]. unfold get_var_idx in E. cbn [state_of s_enum] in E. cbn [state_of s_prob prob_of p_n]. rewrite (make_lin_obj g n w _ E). cbn [bind].
  destruct (add_objective_spec (prob_of sc os) (objective_name show g n w) (orescaled (o_base g n w) (ones (num_implicit_var nm))) (prob_of_inv sc os N)) as [A1 A2]; [apply (obj_reg_args _ _ _ (o_base_wf g n w))|]. cbn [prob_of p_objs] in A1, A2. rewrite keys_objs in A1, A2.
  change {| p_n := num_implicit_var nm; p_cons := [("model_algebra", rescaled c_base (byname sc) (cs_of sc))]; p_objs := objs_of sc os; p_triu := None; p_scales := byname sc |} with (prob_of sc os).
  destruct (in_dec string_dec (objective_name show g n w) (keys os)) as [I|I]; [now rewrite A1|]. rewrite A2 by exact I. cbn [bind]. unfold with_prob, set_objs. cbn [state_of s_names s_vs s_prob s_enum s_lb s_ub s_ncon prob_of p_n p_cons p_triu p_scales].
  unfold state_of, prob_of, objs_of. now rewrite map_app.
Qed.
Lemma ddel_filter : forall V k (d : dict V), NoDup (keys d) -> ddel k d = filter (fun kv => negb (String.eqb k (fst kv))) d.
Proof using.
  intros V k d N. induction d as [|[k' v] d IH]; [reflexivity|]. cbn [keys map fst] in N. inversion N as [|? ? N1 N2]; subst. cbn [ddel filter fst]. destruct (String.eqb_spec k k') as [->|Ne]; cbn [negb].
  - clear - N1. symmetry. induction d as [|[j u] d IH]; [reflexivity|]. cbn [filter fst]. cbn in N1. destruct (String.eqb_spec k' j) as [->|]; [tauto|]. cbn [negb]. f_equal. apply IH. tauto.
  - now rewrite IH.
Qed.
Lemma filter_notin : forall V k (d : dict V), ~ In k (keys d) -> filter (fun kv => negb (String.eqb k (fst kv))) d = d.
Proof using. intros V k d H. induction d as [|[j u] d IH]; [reflexivity|]. cbn [filter fst]. cbn in H. destruct (String.eqb_spec k j) as [->|]; [tauto|]. cbn [negb]. f_equal. apply IH. tauto. Qed.
Lemma del_step_ok : forall sc bd os name, NoDup (keys os) -> mkeep (state_of sc bd os) (fmap (with_prob (state_of sc bd os)) (delete_objective (prob_of sc os) name)) = state_of sc bd (filter (fun kv => negb (String.eqb name (fst kv))) os).
Proof using.
  intros sc bd os name N. unfold delete_objective. cbn [prob_of p_objs]. destruct (dmem name (objs_of sc os)) eqn:D.
  - cbn [fmap mkeep]. unfold with_prob, set_objs, state_of. cbn [s_names s_vs s_prob s_enum s_lb s_ub s_ncon prob_of p_n p_cons p_triu p_scales]. rewrite ddel_filter by (now rewrite keys_objs). unfold prob_of. do 2 f_equal. unfold objs_of. clear. induction os as [|[k [[g n] w]] os IH]; [reflexivity|]. cbn [map filter fst snd]. destruct (String.eqb name k); cbn [negb map fst snd]; now rewrite <- ?IH.
  - apply dmem_false in D. rewrite keys_objs in D. cbn [fmap mkeep]. now rewrite filter_notin.
Qed.
Lemma objs_ok_add : forall os g n w, objs_ok os -> is_variable nm g n -> ~ In (objective_name show g n w) (keys os) -> objs_ok (os ++ [(objective_name show g n w, (g, n, w))]).
Proof using.
  intros os g n w [N F] V I. split; [|apply Forall_app; split; [exact F|constructor; [exact V|constructor]]]. unfold keys in *. rewrite map_app. cbn [map fst]. clear - N I. induction (map fst os) as [|a l IH]; cbn; [repeat constructor; intros []|]. inversion N as [|? ? N1 N2]; subst. constructor; [|apply IH; [assumption|intro H; apply I; now right]]. intro H. apply in_app_or in H. destruct H as [H|[H|[]]]; [contradiction|]. apply I. left. congruence.
Qed.
Lemma objs_ok_del : forall os name, objs_ok os -> objs_ok (filter (fun kv => negb (String.eqb name (fst kv))) os).
Proof using.
  intros os name [N F]. split.
  - rewrite <- ddel_filter by exact N. now apply NoDup_keys_ddel.
  - apply Forall_forall. intros kv H. apply filter_In in H. destruct H as [H _]. rewrite Forall_forall in F. now apply F.
Qed.
Lemma mstep_ok : forall sc bd os op, objs_ok os -> plain_call op -> exists sc' bd' os', scale_step nm sc op sc' /\ bound_step nm bd op bd' /\ obj_step nm show os op os' /\ objs_ok os' /\ mstep show (state_of sc bd os) op = state_of sc' bd' os'.
Proof using HN HF HC.
  intros sc bd os op O P. destruct op as [g n b|g n v|g n w|name]; cbn [plain_call mstep] in *.
  - assert (bound_ok nm g n b \/ ~ bound_ok nm g n b) as [B|B].
    { unfold bound_ok. destruct (variable_dec g n); [|tauto]. destruct b as [lb ub|]; [rewrite <- leb_below; destruct (ebound_leb lb ub); [tauto|right; intros [_ ?]; discriminate]|tauto]. }
    + exists sc, (override bd g n (bound_pair b)), os. split; [now constructor|]. split; [now constructor|]. split; [now constructor|]. split; [assumption|]. rewrite bounds_step by (try assumption; apply B). reflexivity.
    + exists sc, bd, os. split; [now constructor|]. split; [now constructor|]. split; [now constructor|]. split; [assumption|]. now rewrite bounds_refused.
  - assert (scale_ok nm g n v \/ ~ scale_ok nm g n v) as [B|B].
    { unfold scale_ok. destruct (Rlt_dec 0 v); [|tauto]. destruct (in_dec string_dec g ["states"; "inputs"; "con_outputs"]); [|tauto]. destruct (in_dec string_dec n (nm g)); tauto. }
    + exists (override sc g n v), bd, os. split; [now constructor|]. split; [now constructor|]. split; [now constructor|]. split; [assumption|]. rewrite scale_step_ok by (try assumption; apply O). reflexivity.
    + exists sc, bd, os. split; [now constructor|]. split; [now constructor|]. split; [now constructor|]. split; [assumption|]. now rewrite scale_step_refused.
  - destruct (variable_dec g n) as [V|V].
    + rewrite obj_step_ok by assumption. destruct (in_dec string_dec (objective_name show g n w) (keys os)) as [I|I].
      * exists sc, bd, os. split; [now constructor|]. split; [now constructor|]. split; [apply obj_refused; now right|]. split; [assumption|reflexivity].
      * exists sc, bd, (os ++ [(objective_name show g n w, (g, n, w))]). split; [now constructor|]. split; [now constructor|]. split; [now constructor|]. split; [now apply objs_ok_add|reflexivity].
    + exists sc, bd, os. split; [now constructor|]. split; [now constructor|]. split; [apply obj_refused; now left|]. split; [assumption|]. unfold add_obj_from_var. now rewrite get_idx_none.
  - exists sc, bd, (filter (fun kv => negb (String.eqb name (fst kv))) os). split; [now constructor|]. split; [now constructor|]. split; [constructor|]. split; [now apply objs_ok_del|]. apply del_step_ok. apply O.
Qed.
Lemma mrun_ok : forall ops sc bd os, objs_ok os -> Forall plain_call ops -> exists sc' bd' os', steps (scale_step nm) sc ops sc' /\ steps (bound_step nm) bd ops bd' /\ steps (obj_step nm show) os ops os' /\ objs_ok os' /\ mrun show (state_of sc bd os) ops = state_of sc' bd' os'.
Proof using HN HF HC.
  induction ops as [|op ops IH]; intros sc bd os O F.
  - exists sc, bd, os. do 3 (split; [constructor|]). split; [assumption|reflexivity].
  - inversion F as [|? ? F1 F2]; subst. destruct (mstep_ok sc bd os op O F1) as (sc1 & bd1 & os1 & A1 & A2 & A3 & O1 & E1). destruct (IH sc1 bd1 os1 O1 F2) as (sc2 & bd2 & os2 & B1 & B2 & B3 & O2 & E2).
    exists sc2, bd2, os2. split; [econstructor; eassumption|]. split; [econstructor; eassumption|]. split; [econstructor; eassumption|]. split; [assumption|]. unfold mrun in *. cbn [fold_left]. now rewrite E1.
Qed.
(** the specification's histories are functions of the calls *)
Lemma scale_step_fun : forall sc op a b, scale_step nm sc op a -> scale_step nm sc op b -> a = b.
Proof using. intros sc op a b A B. destruct A as [g n v A|g n v A|op A]; inversion B; subst; try reflexivity; try contradiction; cbn in *; contradiction. Qed.
Lemma bound_step_fun : forall bd op a b, bound_step nm bd op a -> bound_step nm bd op b -> a = b.
Proof using. intros sc op a b A B. destruct A as [g n v A|g n v A|op A]; inversion B; subst; try reflexivity; try contradiction; cbn in *; contradiction. Qed.
Lemma obj_step_fun : forall os op a b, obj_step nm show os op a -> obj_step nm show os op b -> a = b.
Proof using. intros os op a b A B. destruct A as [g n v A A'|g n v A|name|op A]; inversion B; subst; try reflexivity; try tauto; cbn in *; tauto. Qed.
Lemma steps_fun : forall A (step : A -> mop -> A -> Prop), (forall s op a b, step s op a -> step s op b -> a = b) -> forall ops s a b, steps step s ops a -> steps step s ops b -> a = b.
Proof using. intros A step F. induction ops as [|op ops IH]; intros s a b H1 H2; inversion H1; subst; inversion H2; subst; [reflexivity|]. match goal with X : step s op ?u, Y : step s op ?v |- _ => assert (u = v) as -> by (eapply F; eassumption) end. eapply IH; eassumption. Qed.

(** construction *)
Definition sc0 : string -> string -> R := fun _ _ => 1%R.
Definition bd0 : string -> string -> ebound * ebound := fun _ _ => (NegInf, PosInf).
Lemma flat_const : forall A (v : A), byname (fun _ _ => v) = repeat v (num_implicit_var nm).
Proof using.
  intros A v. assert (forall l : list string, map (fun _ : string => v) l = repeat v (List.length l)) as M by (induction l as [|a l IH]; cbn; [reflexivity|now rewrite IH]). unfold byname, num_implicit_var, flat_groups. cbn [flat_map]. rewrite <- M, !map_app. reflexivity.
Qed.
Lemma construct_ok : update_problem_scales {| s_names := nm; s_enum := input_names nm; s_prob := {| p_n := num_implicit_var nm; p_cons := [("model_algebra", rescaled c_base (ones (num_implicit_var nm)) (ones (num_implicit_res nm)))]; p_objs := []; p_triu := None; p_scales := ones (num_implicit_var nm) |};
   s_lb := repeat NegInf (num_implicit_var nm); s_ub := repeat PosInf (num_implicit_var nm); s_ncon := num_implicit_res nm; s_vs := map (fun g => (g, make_const_dict (nm g) 1%R)) flat_groups |} = Ok (state_of sc0 bd0 []).
Proof using HN HF HC.
  assert (map (fun g => (g, make_const_dict (nm g) 1%R)) flat_groups = vs_of sc0) as ->.
  { unfold vs_of. apply map_ext_in. intros g Hg. f_equal. unfold make_const_dict. rewrite dict_of_list_nodup; [reflexivity|]. rewrite map_map. cbn. rewrite map_id. destruct HN as (_ & ND & _). apply ND. now right. }
  unfold ones. rewrite <- !flat_const. apply (update_ok sc0 sc0 (repeat 1%R (num_implicit_res nm)) bd0 []); [constructor|intro; apply resc_wf|apply repeat_length].
Qed.
End Sol.
