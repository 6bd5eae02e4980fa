(** C54: what happens if a submodel of the vehicle fails. *)
From Verif Require Import Base RBase TreeModel UtilsModel UtilsProofs UtilsProofs2 IoModel IoProofs AlgModel AlgSpec NlpModel OcpModel BuildModel BuildSpec VehModel VehSpec VehProps KinModel LapModel LapSpec RaceModel RaceProofs RaceSpec RaceProofs2.

Lemma call_raise : forall m (b : buffer R) name kw e sub, no_char dot name = true -> sm_walk [name] (sm_of m) = Ok sub -> dget name b = Some None ->
  (let 'SM ss inputs states _ := sub in bind (check_group (map (fun kv => (fst kv, keys (snd kv))) kw) "inputs" inputs) (fun _ => if ss then check_group (map (fun kv => (fst kv, keys (snd kv))) kw) "states" states else Ok tt)) = Ok tt ->
  call m b name kw (Raise e) = Raise e.
Proof.
  intros m b name kw e [ss inputs states subs] HN HW HB HC. unfold call, call_submodel. rewrite split_clean by exact HN. rewrite HW, HB, HC. reflexivity.
Qed.

Section Fail.
Context {P : Type}.
Variables (tire_out aero_out : list string) (tire_f : P -> corner -> dict R -> result (dict R)) (aero_f : P -> dict R -> result (dict R)) (own : P -> dict R).
Variables (q : P) (v : vparams).
(** An error of the aero model, or of one of the tires, is the error of the vehicle on the track: it is neither dropped nor replaced by another one. *)
Theorem C54_error : forall states inputs e, own_params (own q) v -> keys states = lap_states -> keys inputs = lap_inputs ->
  (forall d, keys d = aero_in_names -> aero_f q d = Raise e) \/
  ((forall d, keys d = aero_in_names -> exists o, aero_f q d = Ok o /\ dget "Cx" o <> None /\ dget "Cz" o <> None) /\
   (forall c, (forall d, keys d = tire_inputs -> tire_f q c d = Raise e) \/ (forall d, keys d = tire_inputs -> exists o, tire_f q c d = Ok o /\ dget "Fx" o <> None /\ dget "Fy" o <> None)) /\
   exists c, forall d, keys d = tire_inputs -> tire_f q c d = Raise e) ->
  race_forward tire_out aero_out tire_f aero_f own q states inputs = Raise e.
Proof using.
  intros states inputs e HO HS HI HF. destruct (ten_keys states HS) as (t & n & eta & s & ->). destruct (seven_keys inputs HI) as (u & k & h & ->).
  assert (veh_forward tire_out aero_out tire_f aero_f own q (veh_st s) (veh_in u) = Raise e) as EV.
  { assert (exists s', read_states (veh_st s) = Ok s') as (s' & ES) by (eexists; reflexivity). assert (exists u', read_inputs (veh_in u) = Ok u') as (u' & EU) by (eexists; reflexivity).
    unfold veh_forward. rewrite EU. cbn [bind]. rewrite ES. cbn [bind]. rewrite (own_read _ _ HO). cbn [bind]. cbv zeta. set (b0 := clear_buffer (sm_of (veh_mio tire_out aero_out)) : buffer R). set (ai := [("front_ride_height", vx s'); ("rear_ride_height", vy s'); ("yaw", yaw_rate s')]).
    destruct HF as [HA|(HA & HT & HC)].
    - rewrite (HA ai eq_refl). rewrite (call_raise _ b0 "aero" _ e (SM false aero_in_names [] [])); reflexivity.
    - destruct (HA ai eq_refl) as (o & -> & HX & HZ). destruct (dget "Cx" o) as [cx|] eqn:EX; [|congruence]. destruct (dget "Cz" o) as [cz|] eqn:EZ; [|congruence].
      assert (call (veh_mio tire_out aero_out) b0 "aero" [("inputs", ai)] (Ok o) = Ok (dset "aero" (Some o) b0, o)) as -> by reflexivity. cbn [bind fst snd]. unfold lookup_err at 1. rewrite EZ. cbn [bind].
      assert (forall c b, (forall d, keys d = tire_inputs -> tire_f q c d = Raise e) -> dget (at_corner "tire_" c) b = Some None -> call_tire tire_out aero_out tire_f q v cz s' u' b c = Raise e) as TR.
      { intros c b Hc Hb. unfold call_tire. rewrite Hc by reflexivity. rewrite (call_raise _ b _ _ e (SM false tire_inputs [] [])); [reflexivity|destruct c; reflexivity|destruct c; reflexivity|exact Hb|reflexivity]. }
      assert (forall c b, (forall d, keys d = tire_inputs -> exists o, tire_f q c d = Ok o /\ dget "Fx" o <> None /\ dget "Fy" o <> None) -> dget (at_corner "tire_" c) b = Some None -> exists d F, call_tire tire_out aero_out tire_f q v cz s' u' b c = Ok (dset (at_corner "tire_" c) (Some d) b, F)) as TO.
      { intros c b Hc Hb. unfold call_tire. set (ti := [("Fz", _); _; _; _; _]). destruct (Hc ti eq_refl) as (d & -> & H1 & H2). destruct (dget "Fx" d) as [F1|] eqn:E1; [|congruence]. destruct (dget "Fy" d) as [F2|] eqn:E2; [|congruence]. exists d, (F1, F2).
        assert (call (veh_mio tire_out aero_out) b (at_corner "tire_" c) [("inputs", ti)] (Ok d) = Ok (dset (at_corner "tire_" c) (Some d) b, d)) as ->.
        { unfold call. rewrite proper_call; [reflexivity|destruct c; reflexivity| |exact Hb]. exists false, tire_inputs, [], []. split; [destruct c; reflexivity|]. split; [|discriminate]. eexists. split; [reflexivity|]. intros a Ha. exact Ha. }
        cbn [bind fst snd]. unfold lookup_err. rewrite E1. cbn [bind]. rewrite E2. reflexivity. }
      set (b1 := dset "aero" (Some o) b0). assert (forall c, dget (at_corner "tire_" c) b1 = Some None) as B1 by (intros []; reflexivity).
      destruct (HT fl) as [R1|O1]; [now rewrite (TR fl b1 R1 (B1 fl))|]. destruct (TO fl b1 O1 (B1 fl)) as (d1 & F1 & ->). cbn [bind fst snd].
      set (b2 := dset (at_corner "tire_" fl) (Some d1) b1). assert (forall c, c <> fl -> dget (at_corner "tire_" c) b2 = Some None) as B2 by (intros [] Hc; try reflexivity; now exfalso).
      destruct (HT fr) as [R2|O2]; [now rewrite (TR fr b2 R2 (B2 fr ltac:(discriminate)))|]. destruct (TO fr b2 O2 (B2 fr ltac:(discriminate))) as (d2 & F2 & ->). cbn [bind fst snd].
      set (b3 := dset (at_corner "tire_" fr) (Some d2) b2). assert (forall c, c = rl \/ c = rr -> dget (at_corner "tire_" c) b3 = Some None) as B3 by (intros c [-> | ->]; reflexivity).
      destruct (HT rl) as [R3|O3]; [now rewrite (TR rl b3 R3 (B3 rl ltac:(auto)))|]. destruct (TO rl b3 O3 (B3 rl ltac:(auto))) as (d3 & F3 & ->). cbn [bind fst snd].
      set (b4 := dset (at_corner "tire_" rl) (Some d3) b3). assert (dget (at_corner "tire_" rr) b4 = Some None) as B4 by reflexivity.
      destruct (HT rr) as [R4|O4]; [now rewrite (TR rr b4 R4 B4)|]. exfalso. destruct HC as (c & Hc). set (ti := map (fun n => (n, 0)) tire_inputs).
      destruct c; [destruct (O1 ti eq_refl) as (x & X1 & _)|destruct (O2 ti eq_refl) as (x & X1 & _)|destruct (O3 ti eq_refl) as (x & X1 & _)|destruct (O4 ti eq_refl) as (x & X1 & _)]; rewrite Hc in X1 by reflexivity; discriminate. }
  unfold race_forward. change (pick veh_inputs (in7 u k h)) with (@Ok (dict R) (veh_in u)). cbn [bind]. change (pick veh_states (st10 t n eta s)) with (@Ok (dict R) (veh_st s)). cbn [bind]. cbv zeta. rewrite EV. cbn [fmap bind snd].
  rewrite (call_raise _ _ "vehicle" _ e (sm_of (veh_mio tire_out aero_out))); reflexivity.
Qed.
End Fail.
Print Assumptions C54_error.
