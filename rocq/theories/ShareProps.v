(** C62: the parameters of problems are isolated from the user's trees and from each other; the user's trees change exactly where objects are shared. *)
From Verif Require Import Base TreeModel TreeSpec TreeProofs TreeProps ShareModel ShareSpec ShareProofs ShareProofs2 ShareProofs3 ShareProofs4.

Section Props.
Context {V : Type}.
Implicit Types (h : heap V) (T : ptree V) (w : world V) (e : event V).

(** In every program, at every moment, the tree, the model and the constraints of a problem hold the same parameters. *)
Theorem C62_consistent : forall lim w k o, reachable lim w -> nth_error (w_ocps w) k = Some o -> exists T, has_params (w_h w) o T.
Proof.
  intros lim w k o R E. destruct (reachable_inv lim w R) as (cn & cd & I). destruct (in_ocps _ _ _ _ I k o E) as (T & O). exists T. exact (ocp_has _ _ _ _ _ _ _ O).
Qed.

(** Nothing that the user does with trees and dicts, shared or not, changes a problem. *)
Theorem C62_user : forall lim w e w', reachable lim w -> of_user e -> step lim w e = Ok w' -> w_ocps w' = w_ocps w /\ forall k, same_ocp w w' k.
Proof.
  intros lim w e w' R U H. destruct (reachable_inv lim w R) as (cn & cd & I). destruct (step_user lim w e w' cn cd I U H) as (cn' & cd' & I' & Ev & Eo).
  split; [exact Eo|]. intro k. apply (evolve_ocp lim w cn cd w' cn' cd' _ k I Ev); [lia|lia|]. intros o E. now rewrite Eo.
Qed.

(** A new problem takes the values of the tree along the submodels of its model, and changes nothing. *)
Theorem C62_new : forall lim w shape i cas w', reachable lim w -> distinct_names shape -> step lim w (ONew shape i cas) = Ok w' ->
  exists l o T, nth_error (w_trees w) i = Some l /\ w_ocps w' = w_ocps w ++ [o] /\ has_params (w_h w') o T /\ cshape T = shape /\ seen (w_h w) l T /\
    same_for_user w w' /\ forall k, same_ocp w w' k.
Proof.
  intros lim w shape i cas w' R D H. destruct (reachable_inv lim w R) as (cn & cd & I). destruct (step_new lim w shape i cas w' cn cd I D H) as (cn' & cd' & l & o & T & I' & Ev & El & Eo & Et & Ed & O & Sh & Sn).
  exists l, o, T. split; [exact El|]. split; [exact Eo|]. split; [exact (ocp_has _ _ _ _ _ _ _ O)|]. split; [exact Sh|]. split; [exact Sn|]. split.
  - apply (evolve_user lim w cn cd w' cn' cd' _ I Ev Logic.I); [exists []|exists []]; now rewrite app_nil_r.
  - intro k. apply (evolve_ocp lim w cn cd w' cn' cd' _ k I Ev Logic.I Logic.I). intros q E. rewrite Eo, nth_error_app1; [exact E|]. apply nth_error_Some. congruence.
Qed.

(** modify_model_param is set_param on the parameters of this problem; nobody else sees it. *)
Theorem C62_modify : forall lim w k o T p v, reachable lim w -> nth_error (w_ocps w) k = Some o -> has_params (w_h w) o T ->
  match set_param dot p v T with
  | Raise x => step lim w (OMod k p v) = Raise x
  | Ok T' => (depth T <= lim -> exists w', step lim w (OMod k p v) = Ok w') /\
      forall w', step lim w (OMod k p v) = Ok w' -> exists o', nth_error (w_ocps w') k = Some o' /\ has_params (w_h w') o' T' /\
        same_for_user w w' /\ (forall j, j <> k -> same_ocp w w' j) /\ List.length (w_ocps w') = List.length (w_ocps w)
  end.
Proof.
  intros lim w k o T p v R E H. destruct (reachable_inv lim w R) as (cn & cd & I). destruct (in_ocps _ _ _ _ I k o E) as (T0 & O). rewrite (has_inv _ _ _ _ _ _ _ _ O H). clear T H.
  pose proof (modify_inv lim (w_h w) cn cd k o T0 p v (in_closed _ _ _ _ I) O) as M. assert (Pk : pick (w_ocps w) k = Ok o) by (unfold pick; now rewrite E).
  destruct (set_param dot p v T0) as [T'|x] eqn:Es.
  - split.
    + intro Dp. destruct (M Dp) as (h' & o' & cn' & cd' & M1 & _). cbn [step]. rewrite Pk. cbn [bind]. rewrite M1. eexists. reflexivity.
    + intros w' Hs. destruct (step_mod lim w k p v w' cn cd I Hs) as (cn' & cd' & o1 & o' & T1 & T1' & I' & Ev & E1 & O1 & Es1 & Eo & Et & Ed & O').
      rewrite E in E1. injection E1 as <-. rewrite (denotes_fun _ _ _ _ (oi_tree _ _ _ _ _ _ _ O1) (oi_tree _ _ _ _ _ _ _ O)) in Es1. rewrite Es in Es1. injection Es1 as <-.
      exists o'. split; [rewrite Eo, nth_put, Nat.eqb_refl; now rewrite E|]. split; [exact (ocp_has _ _ _ _ _ _ _ O')|]. split; [|split].
      * apply (evolve_user lim w cn cd w' cn' cd' _ I Ev); [lia|exists []|exists []]; now rewrite app_nil_r.
      * intros j Ne. apply (evolve_ocp lim w cn cd w' cn' cd' _ j I Ev); [lia|lia|]. intros q Eq. rewrite Eo, nth_put. destruct (Nat.eqb_spec j k); [contradiction|exact Eq].
      * rewrite Eo. clear. generalize (w_ocps w). intro q. revert k. induction q as [|x r IH]; intros [|k]; cbn [put_at List.length]; auto.
  - cbn [step]. rewrite Pk. cbn [bind]. now rewrite M.
Qed.

(** Whatever else happens, the parameters of a problem are those it started with, changed by its own modifications in their order. *)
Theorem C62_history : forall lim w k o T es w', reachable lim w -> nth_error (w_ocps w) k = Some o -> has_params (w_h w) o T -> Forall possible es -> run lim w es = Ok w' ->
  exists o' T', nth_error (w_ocps w') k = Some o' /\ has_params (w_h w') o' T' /\ foldM (fun t pv => set_param dot (fst pv) (snd pv) t) (modifications k es) T = Ok T'.
Proof.
  intros lim w k o T es. revert w o T. induction es as [|e r IH]; intros w o T w' R E H P Hr; cbn [run] in Hr.
  - injection Hr as <-. exists o, T. cbn [modifications foldM]. auto.
  - inversion P as [|? ? P1 P2]; subst. apply bind_ok in Hr. destruct Hr as (w1 & Es & Hr).
    assert (R1 : reachable lim w1).
    { destruct R as (es0 & Q1 & Q2). exists (es0 ++ [e]). split; [apply Forall_app; split; [exact Q1|now constructor]|]. clear - Q2 Es. revert Q2. generalize (@start V). induction es0 as [|x q IHq]; intros s Q2; cbn [run app] in *.
      - injection Q2 as ->. rewrite Es. reflexivity.
      - destruct (step lim s x); cbn [bind] in *; [now apply IHq|discriminate]. }
    assert (St : same_ocp w w1 k -> modifications k (e :: r) = modifications k r -> exists o' T', nth_error (w_ocps w') k = Some o' /\ has_params (w_h w') o' T' /\
      foldM (fun t pv => set_param dot (fst pv) (snd pv) t) (modifications k (e :: r)) T = Ok T').
    { intros S1 Em. destruct (S1 o E) as (E1 & H1). rewrite Em. exact (IH w1 o T w' R1 E1 (H1 T H) P2 Hr). }
    assert (D : of_user e \/ ~ of_user e) by (destruct e; cbn; tauto). destruct D as [D|D].
    + apply St; [apply (C62_user lim w e w1 R D Es)|]. destruct e; cbn [of_user] in D; try contradiction; reflexivity.
    + destruct e as [d|j q v|j cs|i p|i|i j|i p v|i p i2'|i|q|shape i cas|j p v]; cbn [of_user] in D; try tauto.
      * destruct (C62_new lim w shape i cas w1 R P1 Es) as (l & o1 & T1 & _ & _ & _ & _ & _ & _ & S1). apply St; [apply S1|reflexivity].
      * destruct (Nat.eq_dec k j) as [->|Ne].
        -- pose proof (C62_modify lim w j o T p v R E H) as M. cbn [modifications]. rewrite Nat.eqb_refl. cbn [foldM fst snd].
           destruct (set_param dot p v T) as [T1|x]; [|congruence]. destruct M as (_ & M). destruct (M w1 Es) as (o1 & E1 & H1 & _). exact (IH w1 o1 T1 w' R1 E1 H1 P2 Hr).
        -- destruct (C62_consistent lim w1 k o R1) as (Tz & _).
           { pose proof (reachable_inv lim w R) as (cn & cd & I). destruct (step_mod lim w j p v w1 cn cd I Es) as (cn' & cd' & o1 & o1' & T1 & T1' & _ & _ & _ & _ & _ & Eo & _). rewrite Eo, nth_put. destruct (Nat.eqb_spec k j); [contradiction|exact E]. }
           pose proof (reachable_inv lim w R) as (cn & cd & I). destruct (step_mod lim w j p v w1 cn cd I Es) as (cn' & cd' & o1 & o1' & T1 & T1' & I' & Ev & E1 & O1 & Es1 & Eo & Et & Ed & O').
           apply St; [|cbn [modifications]; destruct (Nat.eqb_spec k j); [contradiction|reflexivity]].
           apply (evolve_ocp lim w cn cd w1 cn' cd' _ k I Ev); [lia|lia|]. intros q Eq. rewrite Eo, nth_put. destruct (Nat.eqb_spec k j); [contradiction|exact Eq].
Qed.

(** With distinct, well-formed names the constraints are evaluated with the values of the parameters, in their order. *)
Theorem C62_constraints : forall lim h (o : rocp V) T, has_params h o T -> uniq_p T = true -> named_p T = true -> depth T <= lim -> hused lim h (r_con o) = Ok (leaf_values T).
Proof.
  intros lim h o T H U N D. rewrite (hp_cons _ _ _ H lim D). f_equal. rewrite (proj1 (C02_flat_keys V T U N)). unfold leaf_values. rewrite map_map. now apply map_ext.
Qed.

(** set_param of the user: exactly the parameters that are kept in the same dict object under the same key change, in all trees. *)
Theorem C62_set_exact : forall lim w i l ns key v w', nth_error (w_trees w) i = Some l -> loc_ok (ns, key) = true -> step lim w (USet i (dotted (ns, key)) v) = Ok w' ->
  exists d, kept_in (w_h w) l (ns, key) d /\
    (forall l2 loc2 d2, kept_in (w_h w') l2 loc2 d2 <-> kept_in (w_h w) l2 loc2 d2) /\
    forall l2 ns2 key2, loc_ok (ns2, key2) = true ->
      (kept_in (w_h w) l2 (ns2, key2) d -> key2 = key -> hget_param (w_h w') dot (dotted (ns2, key2)) l2 = Ok v) /\
      (~ kept_in (w_h w) l2 (ns2, key2) d \/ key2 <> key -> hget_param (w_h w') dot (dotted (ns2, key2)) l2 = hget_param (w_h w) dot (dotted (ns2, key2)) l2).
Proof.
  intros lim w i l ns key v w' El Lo H. cbn [step] in H. unfold pick in H. rewrite El in H. cbn [bind] in H. rewrite (hset_at _ _ _ _ _ Lo) in H.
  destruct (hwalk (w_h w) ns l) as [n|] eqn:En; cbn [bind fmap] in H; [|discriminate]. injection H as <-. cbn [with_heap w_h].
  set (d := o_data (h_nodes (w_h w) n)). set (h' := put_dict (w_h w) d (dset key v (h_dicts (w_h w) d))).
  assert (Nd : h_nodes h' = h_nodes (w_h w)) by reflexivity.
  exists d. split; [exists n; split; [now apply hwalk_leads|reflexivity]|]. split.
  - intros l2 loc2 d2. unfold kept_in. rewrite Nd. split; intros (m & M1 & M2); exists m; (split; [|exact M2]); now apply (leads_same_nodes (w_h w) h').
  - intros l2 ns2 key2 Lo2. rewrite !hget_at by exact Lo2. rewrite (hwalk_nodes (w_h w) h') by exact Nd. rewrite Nd. split.
    + intros (m & M1 & M2) ->. apply hwalk_leads in M1. cbn [fst snd] in M1, M2. rewrite M1. cbn [bind]. rewrite M2. unfold lookup_err, h'. cbn [put_dict h_dicts]. rewrite Nat.eqb_refl, dget_dset_same. reflexivity.
    + intros Or. destruct (hwalk (w_h w) ns2 l2) as [m|] eqn:Em; cbn [bind]; [|reflexivity]. unfold h'. cbn [put_dict h_dicts]. destruct (Nat.eqb_spec (o_data (h_nodes (w_h w) m)) d) as [Ed|Ed]; [|reflexivity].
      assert (K : kept_in (w_h w) l2 (ns2, key2) d) by (exists m; split; [now apply hwalk_leads|exact Ed]). destruct Or as [Or|Or]; [contradiction|].
      unfold lookup_err. rewrite dget_dset_other by congruence. now rewrite Ed.
Qed.

(** from_dict (to_dict t) holds the same and shares no dict object with anything, not even with itself. *)
Theorem C62_copy : forall lim w i l T w', reachable lim w -> nth_error (w_trees w) i = Some l -> denotes (w_h w) l T -> step lim w (UCopy i) = Ok w' ->
  exists l', w_trees w' = w_trees w ++ [l'] /\ denotes (w_h w') l' T /\ same_for_user w w' /\
    (forall ns1 ns2 k1 k2 d, kept_in (w_h w') l' (ns1, k1) d -> kept_in (w_h w') l' (ns2, k2) d -> ns1 = ns2) /\
    (forall loc d, kept_in (w_h w') l' loc d -> ~ In d (w_dicts w) /\ forall j l2 loc2, nth_error (w_trees w) j = Some l2 -> ~ kept_in (w_h w') l2 loc2 d).
Proof.
  intros lim w i l T w' R El Hd H. destruct (reachable_inv lim w R) as (cn & cd & I). cbn [step] in H. unfold pick in H. rewrite El in H. cbn [bind] in H. apply fmap_ok in H. destruct H as (x & Ex & <-).
  unfold hcopy in Ex. apply fmap_ok in Ex. destruct Ex as (T1 & ET & <-). apply hread_sound in ET. rewrite (denotes_fun _ _ _ _ ET Hd) in *. clear ET T1.
  destruct (hbuild_spec T (w_h w)) as (B1 & B2 & B3 & B4 & B5). set (x := hbuild (w_h w) T) in *. cbn [with_tree w_h w_trees].
  pose proof (evolve_alloc _ _ cn cd 0 (in_closed _ _ _ _ I) B1 B2) as Ev.
  exists (snd x). split; [reflexivity|]. split; [exact B4|]. split; [|split].
  - apply (evolve_user lim w cn cd (with_tree w x) _ _ _ I Ev Logic.I); [now exists [snd x]|exists []; now rewrite app_nil_r].
  - intros ns1 ns2 k1 k2 d (n1 & L1 & D1) (n2 & L2 & D2). cbn [fst] in *. apply (unshared_apart _ ns1 ns2 (snd x) T n1 n2 B4 B5 L1 L2). congruence.
  - intros loc d (n & L & D).
    assert (Hi : h_nd (w_h w) <= d). { destruct (frame_own (w_h w) (fst x) (fst x) B2 (ext_refl _) T (snd x) B3 B4) as (_ & _ & F). rewrite Forall_forall in F. pose proof (leads_in _ _ _ _ _ B4 L) as Q. rewrite D in Q. specialize (F d Q). lia. }
    split.
    + intro J. pose proof (in_dicts _ _ _ _ I) as F. rewrite Forall_forall in F. specialize (F d J). lia.
    + intros j l2 loc2 Ej (n2 & L2 & D2). pose proof (in_trees _ _ _ _ I) as F. rewrite Forall_forall in F. destruct (F l2 (nth_error_In _ _ Ej)) as (F1 & _).
      assert (Q : n2 < h_nn (w_h w) /\ o_data (h_nodes (fst x) n2) < h_nd (w_h w)).
      { clear D2 D L Hi Ej. pose proof (closed_valid _ _ _ (in_closed _ _ _ _ I)) as Va. induction L2 as [l2|l2 a c ns n2 G L2 IHL].
        - split; [exact F1|]. rewrite (ex_nodes _ _ B1) by exact F1. apply (Va l2 F1).
        - rewrite (ex_nodes _ _ B1) in G by exact F1. destruct (Va l2 F1) as (_ & K). rewrite Forall_forall in K. pose proof (K _ (dget_In' _ _ _ _ G)) as K1. cbn [snd] in K1.
          now apply IHL. }
      lia.
Qed.
End Props.
Print Assumptions C62_consistent.
Print Assumptions C62_user.
Print Assumptions C62_new.
Print Assumptions C62_modify.
Print Assumptions C62_history.
Print Assumptions C62_constraints.
Print Assumptions C62_set_exact.
Print Assumptions C62_copy.
