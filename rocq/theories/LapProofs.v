(** Lemmas for C52: roads, and a history of calls on a laptime simulation as a history of calls on a fixed-mesh problem. *)
From Verif Require Import Base RBase TreeModel UtilsModel UtilsProofs UtilsProofs2 CollocModel CollocProofs CollocProps MeshModel MeshProps OcpModel OcpSpec NlpModel NlpProofs ObjProofs BoundModel BoundSpec ScaleModel ScaleSpec BuildModel BuildSpec BuildProofs BuildProofs2 BuildProofs3 BuildProofs4
  TrackModel TrackSpec TrackProofs TrackProps TrackProps2 TrackProps3 TrackProps4 LapModel LapSpec.

(** ** Roads *)
Lemma rsum_tele : forall (s : list R) (g : nat -> R) m, (m < List.length s)%nat -> (forall i, (S i < List.length s)%nat -> vget (S i) s - vget i s = g i) -> rsum (map g (seq 0 m)) = vget m s - vget 0 s.
Proof.
  intros s g m. induction m as [|m IH]; intros Hm H; [cbn; ring|]. rewrite seq_S, map_app, rsum_app, IH by (try lia; exact H). cbn. rewrite <- (H m) by lia. ring.
Qed.
Lemma pl_width : forall s l r d lv rv, grid s -> (forall i, (i < List.length s)%nat -> - vget i r <= vget i l) -> piecewise_linear s l d lv -> piecewise_linear s r d rv -> - rv <= lv.
Proof.
  intros s l r d lv rv G H (L1 & L2 & L3) (R1 & R2 & R3). pose proof (proj1 G) as H2.
  destruct (Rle_dec d (vget 0 s)) as [D|D]; [rewrite L1, R1 by assumption; apply H; lia|].
  destruct (Rle_dec (vget (List.length s - 1) s) d) as [D'|D']; [rewrite L2, R2 by assumption; apply H; lia|].
  destruct (grid_find s G d ltac:(lra)) as (i & Hi & Hd). specialize (L3 i Hi Hd). specialize (R3 i Hi Hd). pose proof (proj2 G i Hi) as Hg. pose proof (H i ltac:(lia)) as W0. pose proof (H (S i) Hi) as W1.
  apply Rmult_le_reg_r with (vget (S i) s - vget i s); [lra|]. rewrite L3. replace (- rv * (vget (S i) s - vget i s)) with (- (rv * (vget (S i) s - vget i s))) by ring. rewrite R3.
  replace (- (vget i r * (vget (S i) s - d) + vget (S i) r * (d - vget i s))) with ((- vget i r) * (vget (S i) s - d) + (- vget (S i) r) * (d - vget i s)) by ring.
  apply Rplus_le_compat; apply Rmult_le_compat_r; lra.
Qed.
Lemma track_ok : forall read_csv name f, reads read_csv name f -> drivable f -> exists t, bind (read_csv name) from_tum_csv = Ok t /\ total_distance t = Ok (road_length f) /\ 0 < road_length f /\
  forall d, exists c h l r, curvature_at t d = Ok c /\ heading_at t d = Ok h /\ left_distance_at t d = Ok l /\ right_distance_at t d = Ok r /\ road_at f d c h l r /\ - r <= l.
Proof.
  intros read_csv name f (df & E & E1 & E2 & E3 & E4) [DP DT DL DR DW].
  destruct (C45_track_from_points (tf_x f) (tf_y f) (Some (tf_left f)) (Some (tf_right f)) DP DL DR) as (t & s & k & h & F1 & F2 & _ & _ & F3 & F4).
  destruct (C45_from_points (tf_x f) (tf_y f) DP) as (s' & k' & h' & F2' & G & Ls & _ & _ & S0 & SS & _). rewrite F2 in F2'. injection F2' as <- <- <-.
  assert (vget (List.length (tf_x f) - 1) s = road_length f) as EL.
  { unfold road_length. pose proof (proj1 DP). rewrite (rsum_tele s _ (List.length (tf_x f) - 1)); [rewrite S0; ring|lia|]. intros i Hi. apply SS. lia. }
  exists t. split; [|split; [now rewrite <- EL|split]].
  - rewrite E. cbn [bind]. unfold from_tum_csv, lookup_err. rewrite E1, E2, E3, E4. cbn [bind]. exact F1.
  - rewrite <- EL, <- S0. apply grid_lt; [assumption| |]; pose proof (proj1 DP); lia.
  - intro d. destruct (F4 d) as (c & e & l & r & K1 & P1 & K2 & P2 & K3 & P3 & K4 & P4). cbn [side] in P3, P4. exists c, e, l, r. do 4 (split; [assumption|]). split.
    + destruct (C45_curvilinear (tf_x f) (tf_y f) DP DT) as (s'' & k'' & h'' & F2'' & CC). rewrite F2 in F2''. injection F2'' as <- <- <-. exists s, k, h. auto.
    + eapply pl_width; [exact G| |exact P3|exact P4]. intros i Hi. apply DW. lia.
Qed.
Lemma mapM_reads : forall (g : R -> result R) (Q : R -> R -> Prop) d, (forall v, exists y, g v = Ok y /\ Q v y) -> exists l, mapM g d = Ok l /\ List.length l = List.length d /\ forall i, (i < List.length d)%nat -> Q (nth i d 0) (nth i l 0) /\ g (nth i d 0) = Ok (nth i l 0).
Proof.
  intros g Q d H. induction d as [|v d (l & E & L & K)]; [exists []; split; [reflexivity|]; split; [reflexivity|]; intros i Hi; cbn in Hi; lia|].
  destruct (H v) as (y & Ey & Qy). exists (y :: l). cbn [mapM]. rewrite Ey. cbn [bind]. rewrite E. split; [reflexivity|]. split; [cbn; now f_equal|]. intros [|i] Hi; cbn in *; [auto|apply K; lia].
Qed.
Definition three (c h l r : list R) : list bound_config :=
  [{| bg := "inputs"; bn := "track_curvature"; bv := BAr (map Fin c) (map Fin c) |}; {| bg := "inputs"; bn := "track_heading"; bv := BAr (map Fin h) (map Fin h) |};
   {| bg := "states"; bn := "n"; bv := BAr (map (fun v => Fin (- v)) r) (map Fin l) |}].
(** the arrays of a track on a mesh *)
Record arrays (f : track_file) (fm c h l r : list R) : Prop := {
  ar_c : List.length c = List.length fm; ar_h : List.length h = List.length fm; ar_l : List.length l = List.length fm; ar_r : List.length r = List.length fm;
  ar_at : forall s, (s < List.length fm)%nat -> road_at f (nth s fm 0 * road_length f) (nth s c 0) (nth s h 0) (nth s l 0) (nth s r 0) /\ - nth s r 0 <= nth s l 0 }.
Lemma all_le_fin : forall a b, List.length a = List.length b -> (forall i, (i < List.length a)%nat -> nth i a 0 <= nth i b 0) -> all_le (map Fin a) (map Fin b) = true.
Proof.
  induction a as [|u a IH]; intros [|v b] L H; try discriminate; [reflexivity|]. unfold all_le in *. cbn [map combine forallb fst snd eleb]. pose proof (H 0%nat ltac:(cbn; lia)) as H0. cbn in H0. destruct (Rle_dec u v); [|contradiction].
  cbn [andb]. apply IH; [now injection L|]. intros i Hi. apply (H (S i)). cbn. lia.
Qed.
Lemma mbc : forall g n a b, List.length a = List.length b -> (forall i, (i < List.length a)%nat -> nth i a 0 <= nth i b 0) -> make_bound_config g n (PArray 1 (map Fin a)) (PArray 1 (map Fin b)) = Ok {| bg := g; bn := n; bv := BAr (map Fin a) (map Fin b) |}.
Proof. intros g n a b L H. unfold make_bound_config, check_bound_values. cbn [Nat.eqb andb negb]. rewrite !map_length, L, Nat.eqb_refl. cbn [negb]. now rewrite all_le_fin. Qed.
Lemma track_bounds_ok : forall read_csv name f t o fm, reads read_csv name f -> drivable f -> bind (read_csv name) from_tum_csv = Ok t -> flat_mesh (oc_mesh o) = Ok fm ->
  exists c h l r, arrays f fm c h l r /\ track_bounds o t = Ok (three c h l r) /\
    mapM (curvature_at t) (map (fun v => v * road_length f) fm) = Ok c /\ mapM (heading_at t) (map (fun v => v * road_length f) fm) = Ok h.
Proof.
  intros read_csv name f t o fm HR HD ET EF. destruct (track_ok read_csv name f HR HD) as (t' & ET' & EL & _ & HA). rewrite ET in ET'. injection ET' as <-.
  set (d := map (fun v => v * road_length f) fm).
  assert (exists q, forall v, curvature_at t v = Ok (fst (fst (fst (q v)))) /\ heading_at t v = Ok (snd (fst (fst (q v)))) /\ left_distance_at t v = Ok (snd (fst (q v))) /\ right_distance_at t v = Ok (snd (q v)) /\
    road_at f v (fst (fst (fst (q v)))) (snd (fst (fst (q v)))) (snd (fst (q v))) (snd (q v)) /\ - snd (q v) <= snd (fst (q v))) as (q & Hq).
  { exists (fun v => (match curvature_at t v with Ok a => a | _ => 0 end, match heading_at t v with Ok a => a | _ => 0 end, match left_distance_at t v with Ok a => a | _ => 0 end, match right_distance_at t v with Ok a => a | _ => 0 end)).
    intro v. destruct (HA v) as (c & h & l & r & K1 & K2 & K3 & K4 & K5). rewrite K1, K2, K3, K4. cbn [fst snd]. tauto. }
  assert (forall (g : R -> result R) w, (forall v, g v = Ok (w v)) -> forall d, mapM g d = Ok (map w d)) as MM.
  { intros g w H. induction d0 as [|v d0 IH]; [reflexivity|]. cbn [mapM map]. rewrite H. cbn [bind]. now rewrite IH. }
  pose proof (MM (curvature_at t) _ (fun v => proj1 (Hq v)) d) as M1. pose proof (MM (heading_at t) _ (fun v => proj1 (proj2 (Hq v))) d) as M2.
  pose proof (MM (left_distance_at t) _ (fun v => proj1 (proj2 (proj2 (Hq v)))) d) as M3. pose proof (MM (right_distance_at t) _ (fun v => proj1 (proj2 (proj2 (proj2 (Hq v))))) d) as M4.
  match type of M1 with _ = Ok ?u => exists u end. match type of M2 with _ = Ok ?u => exists u end. match type of M3 with _ = Ok ?u => exists u end. match type of M4 with _ = Ok ?u => exists u end.
  assert (forall (w : R -> R) s, (s < List.length fm)%nat -> nth s (map w d) 0 = w (nth s fm 0 * road_length f)) as NM.
  { intros w s Hs. unfold d. rewrite map_map. rewrite (nth_map_in _ _ _ _ _ _ 0) by assumption. reflexivity. }
  assert (List.length d = List.length fm) as Ld by (unfold d; apply map_length).
  assert (arrays f fm (map (fun v => fst (fst (fst (q v)))) d) (map (fun v => snd (fst (fst (q v)))) d) (map (fun v => snd (fst (q v))) d) (map (fun v => snd (q v)) d)) as A.
  { constructor; [now rewrite map_length..|]. intros s Hs. rewrite !NM by assumption. apply (Hq (nth s fm 0 * road_length f)). }
  split; [exact A|]. split; [|split; assumption].
  unfold track_bounds, distance_mesh. rewrite EF. cbn [bind]. rewrite EL. cbn [bind]. fold d. rewrite M1. cbn [bind]. rewrite M2. cbn [bind]. rewrite M3. cbn [bind]. rewrite M4. cbn [bind].
  rewrite mbc by (auto; intros; lra). cbn [bind]. rewrite mbc by (auto; intros; lra). cbn [bind].
  rewrite mbc; [cbn [bind]; unfold three; now rewrite !map_map|now rewrite !map_length|]. rewrite !map_length. rewrite Ld. intros s Hs. rewrite map_map, !NM by assumption. apply (Hq (nth s fm 0 * road_length f)).
Qed.

(** ** Histories *)
Section Histories.
Variables (read_csv : string -> result (dict (list R))).
Context {P : Type}.
(** a history of calls on the lap, as calls on the fixed-mesh problem *)
Inductive expands (fm : list R) : list (lcall P) -> list (scall P) -> Prop :=
| ex_nil : expands fm [] []
| ex_ocp : forall c cs scs, expands fm cs scs -> expands fm (LOcp c :: cs) (c :: scs)
| ex_track : forall name f c h l r cs scs, reads read_csv name f -> drivable f -> arrays f fm c h l r -> expands fm cs scs ->
    expands fm (LTrack name :: cs) (SMeshScale (road_length f) :: SBounds (three c h l r) :: scs).
Lemma calls_app : forall cs1 cs2 (a : attrs P), calls a (cs1 ++ cs2) = bind (calls a cs1) (fun a' => calls a' cs2).
Proof using. induction cs1 as [|c cs1 IH]; intros cs2 a; [reflexivity|]. cbn [app calls]. destruct (check (scall_step a c)) as [a'|]; [|reflexivity]. cbn [bind]. apply IH. Qed.

Definition fixed_at (a : attrs P) (fm : list R) : Prop := oc_fixed (a_o a) <> None /\ flat_mesh (oc_mesh (a_o a)) = Ok fm.
Lemma step_fixed : forall (a : attrs P) c a' fm, fixed_at a fm -> check (scall_step a c) = Ok a' -> (forall q, c <> SMesh q) -> fixed_at a' fm.
Proof using.
  intros a c a' fm [H1 H2] E Hc. unfold check in E. destruct c as [b|b|b|q|s|q]; cbn [scall_step] in E.
  - destruct (snd _) as [?|?] in E; [|discriminate]. injection E as <-. split; assumption.
  - destruct (snd _) as [?|?] in E; [|discriminate]. injection E as <-. split; assumption.
  - destruct (snd _) as [?|?] in E; [|discriminate]. injection E as <-. split; assumption.
  - injection E as <-. split; assumption.
  - destruct (oc_fixed (a_o a)); [|discriminate]. injection E as <-. split; [discriminate|exact H2].
  - exfalso. now apply (Hc q).
Qed.
Lemma set_track_ok : forall (l l' : lap P) name fm f, fixed_at (l_a l) fm -> reads read_csv name f -> drivable f -> lcheck (set_track read_csv l name) = Ok l' ->
  exists c h lf r t, arrays f fm c h lf r /\ calls (l_a l) [SMeshScale (road_length f); SBounds (three c h lf r)] = Ok (l_a l') /\ bind (read_csv name) from_tum_csv = Ok t /\ l_track l' = Some t /\ fixed_at (l_a l') fm.
Proof using.
  intros l l' name fm f [HF HM] HR HD E. destruct (track_ok read_csv name f HR HD) as (t & ET & EL & HP & _).
  unfold set_track in E. rewrite ET, EL in E. cbv beta iota zeta in E. cbn [scall_step] in E. destruct (oc_fixed (a_o (l_a l))) as [s0|] eqn:EFx; [|congruence]. cbn [snd fst] in E.
  destruct (track_bounds_ok read_csv name f t (with_fixed (a_o (l_a l)) (road_length f)) fm HR HD ET HM) as (c & h & lf & r & A & EB & _). cbn [with_o a_o] in E. rewrite EB in E.
  exists c, h, lf, r, t. split; [exact A|]. unfold lcheck in E. cbn [calls]. unfold check at 1. cbn [scall_step]. rewrite EFx. cbn [snd fst bind]. unfold check. cbn [scall_step with_o a_o a_bd] in *. 
  destruct (snd (update_bounds _ _ _)) in E |- *; [|discriminate]. cbn [fst bind] in *. injection E as <-. split; [reflexivity|]. split; [exact ET|]. split; [reflexivity|]. split; [cbn; discriminate|exact HM].
Qed.
Lemma set_track_raises : forall (l : lap P) name fm f c h lf r, fixed_at (l_a l) fm -> reads read_csv name f -> drivable f -> arrays f fm c h lf r -> 
  (forall c' h' lf' r', arrays f fm c' h' lf' r' -> exists a', calls (l_a l) [SMeshScale (road_length f); SBounds (three c' h' lf' r')] = Ok a') -> exists l', lcheck (set_track read_csv l name) = Ok l'.
Proof using.
  intros l name fm f c0 h0 lf0 r0 [HF HM] HR HD _ HE. destruct (track_ok read_csv name f HR HD) as (t & ET & EL & HP & _).
  unfold set_track. rewrite ET, EL. cbv beta iota zeta. cbn [scall_step]. destruct (oc_fixed (a_o (l_a l))) as [s0|] eqn:EFx; [|congruence]. cbn [snd fst].
  destruct (track_bounds_ok read_csv name f t (with_fixed (a_o (l_a l)) (road_length f)) fm HR HD ET HM) as (c & h & lf & r & A & EB & _). cbn [with_o a_o]. rewrite EB.
  destruct (HE c h lf r A) as (a' & Ea). cbn [calls] in Ea. unfold check at 1 in Ea. cbn [scall_step] in Ea. rewrite EFx in Ea. cbn [snd fst bind] in Ea. unfold check in Ea. cbn [scall_step with_o a_o a_bd] in *. unfold lcheck. 
  destruct (snd (update_bounds _ _ _)) in Ea |- *; [|discriminate]. eexists; reflexivity.
Qed.
Lemma lcalls_expand : forall cs (l l' : lap P) fm, fixed_at (l_a l) fm -> lcalls read_csv l cs = Ok l' -> Forall lplain cs -> Forall (good_track read_csv) cs ->
  exists scs, expands fm cs scs /\ calls (l_a l) scs = Ok (l_a l') /\ fixed_at (l_a l') fm /\
    l_track l' = fold_left (fun acc c => match c with LTrack n => match bind (read_csv n) from_tum_csv with Ok t => Some t | Raise _ => None end | LOcp _ => acc end) cs (l_track l).
Proof using.
  induction cs as [|c cs IH]; intros l l' fm HF E HP HG; [cbn in E; injection E as <-; exists []; split; [constructor|]; split; [reflexivity|]; split; [assumption|reflexivity]|].
  apply Forall_cons_iff in HP. destruct HP as [HP1 HP]. apply Forall_cons_iff in HG. destruct HG as [HG1 HG]. cbn [lcalls] in E. apply bind_ok in E. destruct E as (l1 & E1 & E). destruct c as [c|name].
  - unfold lcheck in E1. cbn [lcall_step snd fst] in E1. assert (check (scall_step (l_a l) c) = Ok (l_a l1) /\ l_track l1 = l_track l) as [EC ET]. { unfold check. destruct (snd (scall_step (l_a l) c)); [|discriminate]. injection E1 as <-. auto. }
    destruct (IH l1 l' fm) as (scs & X1 & X2 & X3 & X4); auto. { eapply step_fixed; [exact HF|exact EC|]. intros q ->. exact HP1. }
    exists (c :: scs). split; [now constructor|]. split; [cbn [calls]; rewrite EC; exact X2|]. split; [assumption|]. cbn [fold_left]. now rewrite <- ET.
  - destruct HG1 as (f & HR & HD). destruct (set_track_ok l l1 name fm f HF HR HD E1) as (c & h & lf & r & t & A & EC & ET & EK & HF1).
    destruct (IH l1 l' fm) as (scs & X1 & X2 & X3 & X4); auto. exists (SMeshScale (road_length f) :: SBounds (three c h lf r) :: scs). split; [now econstructor; eauto|].
    split; [|split; [assumption|cbn [fold_left]; rewrite ET; now rewrite <- EK]].
    change (SMeshScale (road_length f) :: SBounds (three c h lf r) :: scs) with ([SMeshScale (road_length f); SBounds (three c h lf r)] ++ scs). rewrite calls_app, EC. exact X2.
Qed.

(** what the expanded calls ask for *)
Lemma reads_fun : forall name f f', reads read_csv name f -> reads read_csv name f' -> f = f'.
Proof using. intros name [] [] (df & E & E1 & E2 & E3 & E4) (df' & E' & E1' & E2' & E3' & E4'). cbn in *. congruence. Qed.
Lemma expands_plain : forall fm cs scs, expands fm cs scs -> Forall lplain cs -> (forall name f, reads read_csv name f -> drivable f -> 0 < road_length f) -> Forall plain scs.
Proof using.
  intros fm cs scs E. induction E as [|c cs scs E IH|name f c h l r cs scs HR HD HA E IH]; intros HP HL; [constructor| |]; apply Forall_cons_iff in HP; destruct HP as [H1 H2].
  - constructor; [|auto]. destruct c; cbn in *; auto; contradiction.
  - constructor; [cbn; eauto|]. constructor; [exact I|auto].
Qed.
Lemma latest_expand : forall A (g : scall P -> option A), (forall s, g (SMeshScale s) = None) -> (forall bs, g (SBounds bs) = None) -> forall fm cs scs, expands fm cs scs -> forall init, latest g init scs = latest g init (other_calls cs).
Proof using.
  intros A g G1 G2 fm cs scs E. unfold latest. induction E as [|c cs scs E IH|name f c h l r cs scs HR HD HA E IH]; intro init; [reflexivity| |].
  - cbn [fold_left other_calls flat_map app]. apply IH.
  - cbn [fold_left other_calls flat_map app]. rewrite G1, G2. apply IH.
Qed.
Lemma bcs_expand : forall fm cs scs, expands fm cs scs -> flat_map (fun c => match c with SBCs l => l | _ => [] end) scs = flat_map (fun c => match c with SBCs l => l | _ => [] end) (other_calls cs).
Proof using. intros fm cs scs E. induction E as [|c cs scs E IH|name f c h l r cs scs HR HD HA E IH]; [reflexivity| |]; cbn [flat_map other_calls app]; [f_equal|]; exact IH. Qed.
Lemma scale_expand : forall fm cs scs, expands fm cs scs -> Forall lplain cs -> forall init f name, reads read_csv name f -> init = road_length f -> exists f', reads read_csv (track_asked name cs) f' /\ mesh_scale_asked init scs = road_length f'.
Proof using.
  intros fm cs scs E. unfold track_asked, mesh_scale_asked, latest. induction E as [|c cs scs E IH|name f c h l r cs scs HR HD HA E IH]; intros HP init f0 name0 HR0 ->; [exists f0; auto| |]; apply Forall_cons_iff in HP; destruct HP as [H1 H2].
  - cbn [fold_left]. destruct c; cbn [lplain] in H1; try contradiction; apply (IH H2 _ f0 name0 HR0 eq_refl).
  - cbn [fold_left]. apply (IH H2 _ f name HR eq_refl).
Qed.
Lemma bounds_expand : forall fm cs scs t n pts, expands fm cs scs -> List.length fm = (n * (t_stages t - 1) + 1)%nat ->
  (forall i j, (i < n)%nat -> (j < t_stages t)%nat -> nth (stage_of t i j) fm 0 = nth i pts 0 + unit_point t j * interval_length pts i /\ (stage_of t i j < List.length fm)%nat) ->
  lap_bounds read_csv t n pts cs (map of_bound (flat_map (fun c => match c with SBounds b => b | _ => [] end) scs)).
Proof using.
  intros fm cs scs t n pts E LF HM. induction E as [|c cs scs E IH|name f c h l r cs scs HR HD HA E IH]; [constructor| |].
  - cbn [flat_map]. rewrite map_app. destruct c; try (cbn [map app]; apply lb_other; [discriminate|exact IH]). apply lb_bounds; exact IH.
  - cbn [flat_map app]. change (three c h l r ++ ?x) with (three c h l r ++ x). rewrite map_app. apply lb_track with (f := f); [exact HR| |exact IH].
    destruct HA as [A1 A2 A3 A4 A5]. rewrite LF in *. exists c, h, l, r. do 4 (split; [assumption|]). split; [|reflexivity]. intros i j Hi Hj s. destruct (HM i j Hi Hj) as [E1 E2]. rewrite <- E1. apply A5. exact E2.
Qed.
End Histories.
