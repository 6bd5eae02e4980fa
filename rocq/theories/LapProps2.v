(** C52 continued: trajectories stay on the track; which laptime simulations are accepted. *)
From Verif Require Import Base RBase TreeModel UtilsModel UtilsProofs IoModel CollocModel CollocProps MeshModel MeshProps OcpModel OcpSpec NlpModel NlpSpec
  AlgSpec ConvSpec CyclicSpec ObjSpec BoundModel BoundSpec BoundProofs CollocProofs ScaleModel ScaleSpec BuildModel BuildSpec BuildProofs BuildProofs2 BuildProofs3 BuildProofs4 BuildProofs5 BuildProofs6 BuildProps BuildProps2
  TrackModel TrackSpec TrackProofs TrackProps TrackProps2 TrackProps4 LapModel LapSpec LapProofs LapProps.

Lemma no_dot_app : forall a b, no_char dot (String.append a (String dot b)) = false.
Proof. induction a as [|c a IH]; intro b; [reflexivity|]. cbn. rewrite IH. apply Bool.andb_false_r. Qed.
Lemma svname_dotless : forall a b g n, no_char dot g = true -> no_char dot n = true -> svname a b = svname g n -> a = g /\ b = n.
Proof.
  unfold svname. induction a as [|c a IH]; intros b [|d g] n Hg Hn E; cbn in E.
  - injection E as <-. auto.
  - injection E as <- _. cbn in Hg. discriminate.
  - injection E as -> E. exfalso. rewrite <- E, no_dot_app in Hn. discriminate.
  - injection E as <- E. cbn in Hg. apply Bool.andb_true_iff in Hg. destruct Hg as [_ Hg]. destruct (IH _ _ _ Hg Hn E) as [-> ->]. auto.
Qed.
Lemma about_none : forall op g n s (cs : list setting), no_char dot g = true -> no_char dot n = true -> (forall c, In c cs -> ~ (k_g c = g /\ k_n c = n)) -> last_about op g n s cs = None.
Proof.
  intros op g n s cs Hg Hn H. unfold last_about. destruct (find (about op g n s) (rev cs)) as [c|] eqn:E; [|reflexivity]. apply find_some in E. destruct E as [E1 E2]. exfalso. apply in_rev in E1. unfold about in E2. apply Bool.andb_true_iff in E2. destruct E2 as [E2 _].
  apply String.eqb_eq in E2. destruct (svname_dotless _ _ _ _ Hg Hn E2). now apply (H c).
Qed.

Section OnTrack.
Variables (read_csv : string -> result (dict (list R))).
Context {P : Type}.
Lemma track_asked_any : forall (cs : list (lcall P)) a b nm, In (LTrack nm) cs -> track_asked a cs = track_asked b cs.
Proof using. unfold track_asked. induction cs as [|c cs IH]; intros a b nm H; [contradiction|]. cbn [fold_left]. destruct c as [c|n]; [|reflexivity]. destruct H as [H|H]; [discriminate|]. now apply (IH a b nm). Qed.
Lemma has_track_dec : forall cs : list (lcall P), (exists nm, In (LTrack nm) cs) \/ forall nm, ~ In (LTrack nm) cs.
Proof using. induction cs as [|c cs [(nm & H)|H]]; [right; auto|left; exists nm; now right|]. destruct c as [c|n]; [right; intros nm [K|K]; [discriminate|now apply (H nm)]|left; exists n; now left]. Qed.
Lemma track_none : forall (cs : list (lcall P)) a, (forall nm, ~ In (LTrack nm) cs) -> track_asked a cs = a.
Proof using. unfold track_asked. induction cs as [|c cs IH]; intros a H; [reflexivity|]. cbn [fold_left]. destruct c as [c|n]; [apply IH; intros nm K; apply (H nm); now right|exfalso; apply (H n); now left]. Qed.

Lemma lap_last_none : forall op t n pts g nm s (cs : list (lcall P)) l, no_char dot g = true -> no_char dot nm = true -> lap_bounds read_csv t n pts cs l -> (forall q, ~ In (LTrack q) cs) -> unbounded_after g nm cs -> last_about op g nm s l = None.
Proof using.
  intros op t n pts g nm s cs l Hg Hn H. induction H as [|bs cs l H IH|name f bs cs l HR HT H IH|c cs l Hc H IH]; intros NT U; [reflexivity| | |].
  - destruct U as [[(q & K)|U1] U]; [exfalso; apply (NT q); now right|]. rewrite last_about_app, IH; [|intros q K; apply (NT q); now right|exact U]. apply about_none; try assumption. intros c K. apply in_map_iff in K. destruct K as (b & <- & K). exact (U1 b K).
  - exfalso. apply (NT name). now left.
  - apply IH; [intros q K; apply (NT q); now right|apply U].
Qed.
Lemma lap_last : forall op t n pts g nm s (cs : list (lcall P)) l, no_char dot g = true -> no_char dot nm = true -> lap_bounds read_csv t n pts cs l -> forall q a f pre, In (LTrack q) cs -> reads read_csv (track_asked a cs) f -> unbounded_after g nm cs ->
  exists three, track_settings f t n pts three /\ (last_about op g nm s three <> None -> last_about op g nm s (pre ++ l) = last_about op g nm s three).
Proof using.
  intros op t n pts g nm s cs l Hg Hn H. induction H as [|bs cs l H IH|name f0 bs cs l HR HT H IH|c cs l Hc H IH]; intros q a f pre HI HF U; [contradiction| | |].
  - destruct HI as [HI|HI]; [discriminate|]. destruct (IH q a f (pre ++ map of_bound bs) HI HF (proj2 U)) as (three & T1 & T2). exists three. split; [exact T1|]. rewrite <- app_assoc in T2. exact T2.
  - destruct (has_track_dec cs) as [(q' & K)|NT].
    + destruct (IH q' a f (pre ++ bs) K) as (three & T1 & T2); [|apply U|exists three; split; [exact T1|rewrite <- app_assoc in T2; exact T2]].
      rewrite (track_asked_any cs a name q' K). exact HF.
    + exists bs. assert (f = f0) as ->. { eapply reads_fun; [exact HF|]. change (track_asked a (LTrack name :: cs)) with (track_asked name cs). rewrite track_none by exact NT. exact HR. }
      split; [exact HT|]. intro K. rewrite !last_about_app. rewrite (lap_last_none op t n pts g nm s cs l Hg Hn H NT (proj2 U)). destruct (last_about op g nm s bs); [reflexivity|congruence].
  - destruct HI as [HI|HI]; [congruence|]. apply (IH q a f pre HI HF (proj2 U)).
Qed.
Lemma asked_good : forall (cs : list (lcall P)) a, Forall (good_track read_csv) (LTrack a :: cs) -> exists f, reads read_csv (track_asked a cs) f /\ drivable f.
Proof using.
  unfold track_asked. induction cs as [|c cs IH]; intros a H; apply Forall_cons_iff in H; destruct H as [H1 H]; [exact H1|]. apply Forall_cons_iff in H. destruct H as [H2 H]. cbn [fold_left]. destruct c as [c|n]; apply IH; constructor; assumption.
Qed.
End OnTrack.
Lemma road_unique : forall f d k h l r k' h' l' r', drivable f -> road_at f d k h l r -> road_at f d k' h' l' r' -> k = k' /\ h = h' /\ l = l' /\ r = r'.
Proof.
  intros f d k h l r k' h' l' r' D (s & kk & hh & C & P1 & P2 & P3 & P4) (s' & kk' & hh' & C' & P1' & P2' & P3' & P4'). pose proof (dv_points _ D) as M. destruct (C45_curvilinear_unique _ _ _ _ _ _ _ _ M C C') as (<- & <- & <-).
  assert (grid s) as G. { destruct C as (Ls & _ & _ & _ & SD & _). eapply TrackProps2.moving_grid; [exact M|exact Ls|]. intros i Hi. pose proof (SD i Hi). lra. }
  repeat split; eapply pl_unique; eassumption.
Qed.

(** On every trajectory within the bounds, at every stage: the curvature and heading inputs are those of the road last set, at the distance of the stage, and the
    lateral position is between its edges, unless later bounds or boundary conditions for these variables were asked for. *)
Theorem C52_on_track : forall roots read_csv P (M : smodel P) c first p cs l f t pl bs x i j,
  let cfg := lc_sim c in lc_track c = Some first -> oracle_ok roots (cf_tns cfg) -> (1 <= cf_n cfg)%nat -> model_ok M (cf_con cfg) ->
  In "n" (m_states M) -> In "track_curvature" (m_inputs M) -> In "track_heading" (m_inputs M) ->
  lap_history roots read_csv M c p cs = Ok l -> Forall lplain cs -> Forall (good_track read_csv) (LTrack first :: cs) -> reads read_csv (track_asked first cs) f ->
  make_transcription roots (cf_tname cfg) (cf_tns cfg) = Ok t -> lap_bounds read_csv t (cf_n cfg) pl (LTrack first :: cs) bs ->
  let o := a_o (l_a l) in let len := Some (road_length f) in let nst := (cf_n cfg * (t_stages t - 1) + 1)%nat in
  trajectory o (m_states M) (m_inputs M) (cf_con cfg) (m_residuals M) (m_forward M (params_asked p (other_calls cs))) t (cf_n cfg) pl len
    (if cf_cyclic cfg then Some (cyclic_pairs (m_states M) (m_inputs M) (cf_noncyclic cfg)) else None) (map of_bound (cf_bounds cfg) ++ bs) (bcs_asked (cf_bcs cfg) (other_calls cs)) x ->
  (i < cf_n cfg)%nat -> (j < t_stages t)%nat ->
  let s := stage_of t i j in let free := untouched (cf_bcs cfg) cs nst in
  exists k h lf r, road_at f ((nth i pl 0 + unit_point t j * interval_length pl i) * road_length f) k h lf r /\
    (free "inputs" "track_curvature" s -> val o x "inputs" "track_curvature" s k) /\ (free "inputs" "track_heading" s -> val o x "inputs" "track_heading" s h) /\
    (free "states" "n" s -> exists v, val o x "states" "n" s v /\ - r <= v <= lf).
Proof.
  intros roots read_csv P M c first p cs l f t pl bs x i j cfg EC HO Hn MO IN IC IH' HH HP HG HF ET HB o len nst TJ Hi Hj s free.
  assert (m_states M <> []) as Hst by (intro X; rewrite X in IN; exact IN).
  destruct (lap_history_expand roots read_csv P M c first p cs l EC HO Hn Hst HH HP HG) as (scs & fm & X & EH & PL & EF & EM & ML & _). specialize (ML f HF).
  destruct (the_facts roots P M (with_penalty cfg) (Some 1) p scs (l_a l) HO Hn Hst MO EH PL) as (o' & fm' & pl' & ops & h0 & F).
  assert (num_stages (oc_op o) = nst) as NS. { unfold o. rewrite (fa_o _ _ _ _ _ _ _ _ _ _ _ _ _ F), (fa_ns _ _ _ _ _ _ _ _ _ _ _ _ _ F). pose proof (fa_tr _ _ _ _ _ _ _ _ _ _ _ _ _ F) as Y. cbn [with_penalty cf_tname cf_tns cf_n] in Y |- *. fold cfg in ET. rewrite ET in Y. injection Y as <-. reflexivity. }
  assert (s < nst)%nat as Hs by (unfold s, nst; apply stage_lt; lia).
  (* the settings of the last track *)
  assert (forall g nm, no_char dot g = true -> no_char dot nm = true -> unbounded_after g nm cs -> exists three, track_settings f t (cf_n cfg) pl three /\ (last_about (oc_op o) g nm s three <> None -> last_about (oc_op o) g nm s (map of_bound (cf_bounds cfg) ++ bs) = last_about (oc_op o) g nm s three)) as LT.
  { intros g nm Hg Hnm U. apply (lap_last read_csv (oc_op o) t (cf_n cfg) pl g nm s (LTrack first :: cs) bs Hg Hnm HB first first f); [now left|exact HF|]. split; [right; exact I|exact U]. }
  assert (forall g nm, no_char dot g = true -> no_char dot nm = true -> g <> "global" -> free g nm s -> last_about (oc_op o) g nm s (bcs_asked (cf_bcs cfg) (other_calls cs)) = None) as LB.
  { intros g nm Hg Hnm Hgl [_ U]. unfold last_about. destruct (find _ _) as [b|] eqn:E; [|reflexivity]. exfalso. apply find_some in E. destruct E as [E1 E2]. apply in_rev in E1. unfold bcs_asked in E1. apply in_map_iff in E1. destruct E1 as (b' & <- & E1).
    unfold about in E2. cbn [of_bc k_g k_n k_stage] in E2. apply Bool.andb_true_iff in E2. destruct E2 as [E2 E3]. apply String.eqb_eq in E2. destruct (svname_dotless _ _ _ _ Hg Hnm E2) as [Eg En].
    apply (U b'); [|split; [exact Eg|split; [exact En|]]].
    - apply in_app_or in E1. apply in_or_app. destruct E1 as [E1|E1]; [now left|right]. apply in_flat_map in E1. destruct E1 as (k & K1 & K2). unfold other_calls in K1. apply in_flat_map in K1. destruct K1 as (k' & K1 & K3). destruct k' as [k'|]; [|contradiction]. destruct K3 as [->|[]]. apply in_flat_map. exists (LOcp k). auto.
    - rewrite NS in E3. apply Bool.orb_true_iff in E3. destruct E3 as [E3|E3]; [apply String.eqb_eq in E3; contradiction|].
      apply Bool.orb_true_iff in E3. destruct E3 as [E3|E3]; apply Z.eqb_eq in E3; [left|right]; exact E3. }
  (* the road at this stage *)
  destruct (asked_good read_csv cs first HG) as (f' & HF' & HD). assert (f' = f) as -> by (eapply reads_fun; eassumption).
  destruct (track_ok read_csv _ f HF HD) as (tk & _ & _ & _ & RD). destruct (RD ((nth i pl 0 + unit_point t j * interval_length pl i) * road_length f)) as (k & h & lf & r & _ & _ & _ & _ & RA & _).
  exists k, h, lf, r. split; [exact RA|].
  pose proof (tj_bounds _ _ _ _ _ _ _ _ _ _ _ _ _ _ TJ) as TB. cbv beta in TB.
  assert (s <= cf_n cfg * (t_stages t - 1))%nat as Hs' by (unfold nst in Hs; lia).
  assert (forall three, track_settings f t (cf_n cfg) pl three -> last_about (oc_op o) "inputs" "track_curvature" s three <> None /\ last_about (oc_op o) "inputs" "track_heading" s three <> None /\ last_about (oc_op o) "states" "n" s three <> None /\
     match last_about (oc_op o) "inputs" "track_curvature" s three with Some c => value_for "inputs" s c | None => (NegInf, PosInf) end = (Fin k, Fin k) /\
     match last_about (oc_op o) "inputs" "track_heading" s three with Some c => value_for "inputs" s c | None => (NegInf, PosInf) end = (Fin h, Fin h) /\
     match last_about (oc_op o) "states" "n" s three with Some c => value_for "states" s c | None => (NegInf, PosInf) end = (Fin (- r), Fin lf)) as TS.
  { intros three (c0 & h1 & l0 & r0 & L1 & L2 & L3 & L4 & A & ->). specialize (A i j Hi Hj). cbv zeta in A. fold s in A. destruct (road_unique f _ _ _ _ _ _ _ _ _ HD RA A) as (Ek & Eh & El & Er). fold nst in L1, L2, L3, L4.
    unfold last_about. cbn. unfold value_for. cbn. split; [discriminate|]. split; [discriminate|]. split; [discriminate|].
    assert (forall (w : R -> ebound) q d, List.length q = nst -> nth s (map w q) d = w (nth s q 0)) as NM by (intros w q d E; rewrite (nth_indep _ d (w 0)) by (rewrite map_length; lia); apply map_nth).
    rewrite !NM by assumption. subst. auto. }
  split; [|split].
  - intro U. destruct (LT "inputs" "track_curvature" eq_refl eq_refl (proj1 U)) as (three & T1 & T2). destruct (TS three T1) as (N1 & _ & _ & V & _ & _). destruct (TB "inputs" "track_curvature" s) as (v & Vv & B1 & B2); [right; left; auto|exact Hs'|].
    unfold expected in B1, B2. rewrite (LB "inputs" "track_curvature" eq_refl eq_refl ltac:(discriminate) U), (T2 N1), V in B1, B2. cbn in B1, B2. assert (k = v) as -> by lra. exact Vv.
  - intro U. destruct (LT "inputs" "track_heading" eq_refl eq_refl (proj1 U)) as (three & T1 & T2). destruct (TS three T1) as (_ & N1 & _ & _ & V & _). destruct (TB "inputs" "track_heading" s) as (v & Vv & B1 & B2); [right; left; auto|exact Hs'|].
    unfold expected in B1, B2. rewrite (LB "inputs" "track_heading" eq_refl eq_refl ltac:(discriminate) U), (T2 N1), V in B1, B2. cbn in B1, B2. assert (h = v) as -> by lra. exact Vv.
  - intro U. destruct (LT "states" "n" eq_refl eq_refl (proj1 U)) as (three & T1 & T2). destruct (TS three T1) as (_ & _ & N1 & _ & _ & V). destruct (TB "states" "n" s) as (v & Vv & B1 & B2); [left; auto|exact Hs'|].
    unfold expected in B1, B2. rewrite (LB "states" "n" eq_refl eq_refl ltac:(discriminate) U), (T2 N1), V in B1, B2. cbn in B1, B2. exists v. split; [exact Vv|lra].
Qed.
Print Assumptions C52_on_track.

(** ** Acceptance *)
Definition lcall_ok {P} (read_csv : string -> result (dict (list R))) (nst : nat) (st inp con : list string) (c : lcall P) : Prop :=
  match c with LOcp c => call_ok nst st inp con (Some 1) c | LTrack n => exists f, reads read_csv n f /\ drivable f end.
Lemma call_plain : forall P nst st inp con fixed (c : scall P), call_ok nst st inp con fixed c -> plain c.
Proof. intros P nst st inp con fixed [] H; cbn in *; tauto. Qed.
Lemma history_app : forall roots P (M : smodel P) cfg fixed p cs1 cs2, history roots M cfg fixed p (cs1 ++ cs2) = bind (history roots M cfg fixed p cs1) (fun a => calls a cs2).
Proof. intros. unfold history. destruct (construct roots M cfg fixed p) as [a|]; [|reflexivity]. cbn [bind]. apply calls_app. Qed.
(** A configuration in order with an existing track that is a road is accepted, and so is every sequence of calls in order after it. *)
Theorem C52_accepts : forall roots read_csv P (M : smodel P) c first p cs t,
  let cfg := lc_sim c in let nst := (cf_n cfg * (t_stages t - 1) + 1)%nat in
  lc_track c = Some first -> oracle_ok roots (cf_tns cfg) -> make_transcription roots (cf_tname cfg) (cf_tns cfg) = Ok t -> config_ok M cfg (Some 1) t ->
  In "steer" (m_inputs M) -> In "n" (m_states M) -> In "track_curvature" (m_inputs M) -> In "track_heading" (m_inputs M) ->
  Forall (lcall_ok read_csv nst (m_states M) (m_inputs M) (cf_con cfg)) (LTrack first :: cs) -> exists l, lap_history roots read_csv M c p cs = Ok l.
Proof.
  intros roots read_csv P M c first p cs t cfg nst EC HO ET CK IS IN IC IH' HC.
  assert (config_ok M (with_penalty cfg) (Some 1) t) as CK'.
  { destruct CK as [K1 K2 K3 K4 K5 K6 K7 K8 K9 K10]. constructor; try assumption. cbn. intros w E. injection E as <-. split; [cbn; repeat constructor; intros []|intros q [<-|[]]; exact IS]. }
  pose proof (fun cs => C51_accepts roots P M (with_penalty cfg) (Some 1) p cs t HO ET CK') as ACC. cbn [with_penalty cf_n cf_con] in ACC. fold nst in ACC.
  (* one step at a time *)
  assert (forall cs scs a, history roots M (with_penalty cfg) (Some 1) p scs = Ok a -> Forall (call_ok nst (m_states M) (m_inputs M) (cf_con cfg) (Some 1)) scs ->
    Forall (lcall_ok read_csv nst (m_states M) (m_inputs M) (cf_con cfg)) cs -> forall tr, exists l, lcalls read_csv {| l_a := a; l_track := tr |} cs = Ok l) as STEP.
  { clear HC EC cs first. induction cs as [|k cs IHc]; intros scs a EH HS HC tr; [eexists; reflexivity|]. apply Forall_cons_iff in HC. destruct HC as [HC1 HC]. destruct k as [k|nm].
    - destruct (ACC (scs ++ [k])) as (a' & Ea'); [apply Forall_app; auto|]. pose proof Ea' as Eb. rewrite history_app, EH in Eb. cbn [bind calls] in Eb. apply bind_ok in Eb. destruct Eb as (a1 & E1 & E2). injection E2 as ->.
      cbn [lcalls lcall_step]. unfold lcheck. cbn [l_a l_track snd fst]. unfold check in E1. destruct (snd (scall_step a k)) eqn:Es; [|discriminate]. injection E1 as <-. cbn [bind]. apply (IHc (scs ++ [k])); [exact Ea'|apply Forall_app; auto|exact HC].
    - destruct HC1 as (f & HR & HD). assert (Forall plain scs) as PL by (eapply Forall_impl; [|exact HS]; intros; eapply call_plain; eassumption).
      destruct (the_facts roots P M (with_penalty cfg) (Some 1) p scs a HO (ck_n _ _ _ _ CK') (ck_states _ _ _ _ CK') (ck_model _ _ _ _ CK') EH PL) as (o' & fm & pl & ops & h0 & F).
      assert (List.length fm = nst) as LF. { rewrite (fa_lfm _ _ _ _ _ _ _ _ _ _ _ _ _ F), (fa_ns _ _ _ _ _ _ _ _ _ _ _ _ _ F). pose proof (fa_tr _ _ _ _ _ _ _ _ _ _ _ _ _ F) as Y. cbn [with_penalty cf_tname cf_tns cf_n] in Y |- *. rewrite ET in Y. injection Y as <-. reflexivity. }
      assert (fixed_at a fm) as FA. { destruct (history_inv _ _ _ _ _ _ _ _ EH PL) as (o2 & fm2 & cyc2 & a2 & EO2 & EF2 & _ & _ & _ & _ & [J1 _ J3 _ _ _ _]). rewrite (fa_mesh _ _ _ _ _ _ _ _ _ _ _ _ _ F) in J3. subst fm2. split; rewrite J1; unfold o_at; [discriminate|exact EF2]. }
      destruct (track_ok read_csv nm f HR HD) as (tk & ETk & _ & RP & _).
      assert (forall c' h' lf' r', arrays f fm c' h' lf' r' -> Forall (call_ok nst (m_states M) (m_inputs M) (cf_con cfg) (Some 1)) (scs ++ [SMeshScale (road_length f); SBounds (three c' h' lf' r')])) as OKB.
      { intros c' h' lf' r' [A1 A2 A3 A4 A5]. apply Forall_app. split; [exact HS|]. constructor; [split; [discriminate|exact RP]|]. constructor; [|constructor]. cbn [call_ok]. rewrite LF in *.
        assert (forall (w : R -> ebound) q d, List.length q = nst -> forall i, (i < nst)%nat -> nth i (map w q) d = w (nth i q 0)) as NM by (intros w q d E i Hi; rewrite (nth_indep _ d (w 0)) by (rewrite map_length; lia); apply map_nth).
        intros b [<-|[<-|[<-|[]]]]; (split; [cbn; unfold known_var; tauto|split; [intros _; exact I|]]); cbn [of_bound bv bg bn k_v k_stage k_g]; rewrite !map_length; (split; [congruence|split; [|assumption]]); intros i Hi.
        - rewrite !NM by lia. cbn. lra.
        - rewrite !NM by lia. cbn. lra.
        - rewrite !NM by lia. cbn. apply A5. lia. }
      assert (exists l', lcheck (set_track read_csv {| l_a := a; l_track := tr |} nm) = Ok l') as (l' & El').
      { destruct (track_bounds_ok read_csv nm f tk (a_o a) fm HR HD ETk (proj2 FA)) as (c0 & h1 & lf0 & r0 & A0 & _). apply (set_track_raises read_csv {| l_a := a; l_track := tr |} nm fm f c0 h1 lf0 r0 FA HR HD A0).
        intros c' h' lf' r' A. destruct (ACC _ (OKB _ _ _ _ A)) as (a' & Ea'). rewrite history_app, EH in Ea'. cbn [bind] in Ea'. exists a'. exact Ea'. }
      destruct (set_track_ok read_csv {| l_a := a; l_track := tr |} l' nm fm f FA HR HD El') as (c0 & h1 & lf0 & r0 & tk' & A0 & EC0 & _). cbn [l_a] in EC0.
      cbn [lcalls lcall_step]. rewrite El'. cbn [bind]. destruct l' as [a' tr']. cbn [l_a] in EC0. apply (IHc (scs ++ [SMeshScale (road_length f); SBounds (three c0 h1 lf0 r0)])); [|apply OKB; exact A0|exact HC].
      rewrite history_app, EH. cbn [bind]. exact EC0. }
  destruct (ACC [] (Forall_nil _)) as (a & Ea). destruct (STEP (LTrack first :: cs) [] a Ea (Forall_nil _) HC None) as (l & El). exists l.
  unfold lap_history, lap_construct. unfold history in Ea. apply bind_ok in Ea. destruct Ea as (a1 & Ea & E2). injection E2 as ->. fold cfg. rewrite Ea. cbn [bind]. rewrite EC. exact El.
Qed.
Print Assumptions C52_accepts.
