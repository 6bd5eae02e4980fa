(** C53, continued: the drone's equations have the derivatives written by hand in FlightProps3; an explicit flight; all hypotheses are met. *)
From Verif Require Import Base RBase TreeModel UtilsModel UtilsProofs IoModel CollocModel CollocProofs CollocProps MeshModel MeshProps OcpModel OcpSpec OcpProofs OcpProps NlpModel NlpSpec AlgModel AlgSpec ConvModel ConvSpec CyclicSpec BoundModel BoundSpec ScaleModel ScaleSpec ObjModel ObjSpec ObjProps
  BuildModel BuildSpec BuildProofs BuildProofs4 BuildProofs5 BuildProofs6 BuildProps BuildProps2 BuildProps3 BuildProps4 GuessProofs LapModel LapSpec DroneModel FlightModel FlightSpec FlightProofs FlightProps FlightProps2 FlightProps3.

Ltac pdt := repeat first [apply pderiv_const | apply OcpProofs2.pderiv_sub | apply pderiv_plus | apply pderiv_mult | apply pderiv_scal | apply pderiv_sin | apply pderiv_cos | apply pderiv_coord; lia].
Lemma thirteen : forall (w : list R), List.length w = 13%nat -> exists a b c d e f g h i j k l m, w = [a; b; c; d; e; f; g; h; i; j; k; l; m].
Proof. intros [|a [|b [|c [|d [|e [|f [|g [|h [|i [|j [|k [|l [|m [|? ?]]]]]]]]]]]]]]; try discriminate. intros _. now exists a, b, c, d, e, f, g, h, i, j, k, l, m. Qed.
Lemma hand_residual : forall p mesh w, List.length w = 13%nat -> residual (names_of hand_drone ["sin_theta"]) (m_forward hand_drone p) mesh w =
  [vget 1 w - vget 7 w; vget 5 w * sin (vget 4 w) - vget 8 w; vget 3 w - vget 9 w; vget 5 w * cos (vget 4 w) - p - vget 10 w; vget 6 w - vget 11 w; sin (vget 4 w) - vget 12 w].
Proof. intros p mesh w L. destruct (thirteen w L) as (a & b & c & d & e & f & g & h & i & j & k & l & m & ->). reflexivity. Qed.
Lemma hand_derivatives : model_derivatives hand_drone ["sin_theta"].
Proof.
  intros p mesh nin res. change nin with 13%nat. change (num_implicit_res (names_of hand_drone ["sin_theta"])) with 6%nat. split.
  - intros w i j Lw Hi Hj.
    apply pderiv_ext_len with (f := fun w => vget i [vget 1 w - vget 7 w; vget 5 w * sin (vget 4 w) - vget 8 w; vget 3 w - vget 9 w; vget 5 w * cos (vget 4 w) - p - vget 10 w; vget 6 w - vget 11 w; sin (vget 4 w) - vget 12 w]).
    { intros y Ly. unfold res. rewrite hand_residual by congruence. reflexivity. }
    cbn [hand_drone drone_model m_js m_jac fst snd hand_js hand_jac].
    do 6 (destruct i as [|i]; [unfold vget at 1; cbn [nth]; eapply pderiv_eq; [|pdt]; (do 13 (destruct j as [|j]; [cbn; lra|])); lia|]). lia.
  - intros l Ll. exists (fun w j => nth j [0; vget 0 l; 0; vget 2 l; vget 1 l * vget 5 w * cos (vget 4 w) - vget 3 l * vget 5 w * sin (vget 4 w) + vget 5 l * cos (vget 4 w); vget 1 l * sin (vget 4 w) + vget 3 l * cos (vget 4 w); vget 4 l;
      - vget 0 l; - vget 1 l; - vget 2 l; - vget 3 l; - vget 4 l; - vget 5 l] 0). split.
    + intros w j Lw Hj. apply pderiv_ext_len with (f := fun w => vget 0 l * (vget 1 w - vget 7 w) + (vget 1 l * (vget 5 w * sin (vget 4 w) - vget 8 w) + (vget 2 l * (vget 3 w - vget 9 w) +
        (vget 3 l * (vget 5 w * cos (vget 4 w) - p - vget 10 w) + (vget 4 l * (vget 6 w - vget 11 w) + vget 5 l * (sin (vget 4 w) - vget 12 w)))))).
      { intros y Ly. unfold res. rewrite hand_residual by congruence. destruct l as [|l0 [|l1 [|l2 [|l3 [|l4 [|l5 [|]]]]]]]; try discriminate. cbn. unfold vget; cbn. lra. }
      eapply pderiv_eq; [|pdt]. do 13 (destruct j as [|j]; [cbn; lra|]). lia.
    + intros w i j Lw Hi Hj Hij. cbn [hand_drone drone_model m_hs m_hess fst snd hand_hs hand_hess].
      do 13 (destruct i as [|i]; [cbn [nth]; (eapply pderiv_eq; [|pdt]); (do 13 (destruct j as [|j]; [try lia; cbn; lra|])); lia|]). lia.
Qed.

(** a loop in four steps of one second *)
Definition at5 (l : list R) (s : nat) : R := nth s l 0.
Definition the_loop : plan := {| f_T := 4; f_x := at5 [0; 0; 0; 0; 0]; f_vx := at5 [0; 0; 0; 0; 0]; f_z := at5 [0; 5/2; 25/4; 25/4; 5]; f_vz := at5 [0; 5; 5/2; -5/2; 0];
  f_th := at5 [0; 0; PI; 2 * PI; 2 * PI]; f_f := at5 [14; 16; 1; 11; 14]; f_om := at5 [0; 0; 2 * PI; 0; 0] |}.
Lemma the_loop_flies : flight 4 [0; 1/4; 1/2; 3/4; 1] 10 the_loop.
Proof.
  pose proof PI_RGT_0 as P0. pose proof PI_4 as P4. assert (cos (2 * PI) = 1) as C2 by apply cos_2PI. assert (sin (2 * PI) = 0) as S2 by apply sin_2PI.
  constructor; try (intros i Hi; do 4 (destruct i as [|i]; [unfold the_loop, at5; cbn [nth f_T f_x f_vx f_z f_vz f_th f_f f_om]; rewrite ?sin_0, ?cos_0, ?sin_PI, ?cos_PI, ?S2, ?C2; lra|]); lia).
  - cbn [the_loop f_T]. lra.
  - intros s Hs. do 5 (destruct s as [|s]; [unfold the_loop, at5; cbn [nth f_T f_x f_vx f_z f_vz f_th f_f f_om]; repeat split; lra|]). lia.
  - unfold the_loop, at5; cbn [nth f_T f_x f_vx f_z f_vz f_th f_f f_om]. repeat split; reflexivity.
  - unfold the_loop, at5; cbn [nth f_T f_x f_vx f_z f_vz f_th f_f f_om]. repeat split; reflexivity.
Qed.
Definition loop_scales : list scale_config := [{| sc_g := "states"; sc_n := "z"; sc_v := 5 |}; {| sc_g := "global"; sc_n := "mesh_scale"; sc_v := 2 |}].
Definition loop_calls : list (scall R) := [SScales [{| sc_g := "inputs"; sc_n := "f"; sc_v := 20 |}]; SParams 10].
(** a problem with four intervals, on the default and on given points, after a change of scales and of gravity; it has a flight *)
Example C53_nonvacuous : forall pts, pts = None \/ pts = Some [0; 1/4; 1/2; 3/4; 1] ->
  exists a pl, oracle_ok (fun _ => [-1; 1/3]) None /\ shapes hand_jac hand_hess hand_js hand_hs /\ Forall tuning loop_calls /\ history (fun _ => [-1; 1/3]) hand_drone (default_drone 4 pts loop_scales) None (981 / 100) loop_calls = Ok a /\
    Forall (fun c => 0 < sc_v c) (scales_asked loop_scales loop_calls) /\ params_asked (981 / 100) loop_calls = 10 /\ model_derivatives hand_drone ["sin_theta"] /\ points_used 4 pts pl /\ flight 4 pl 10 the_loop /\
    exists x, logs 4 10 (a_o a) x the_loop.
Proof.
  intros pts Hp. pose proof (proj1 C22_nonvacuous) as HO.
  destruct (C53_accepts (fun _ => [-1; 1/3]) hand_jac hand_hess hand_js hand_hs 4 pts loop_scales (981 / 100) loop_calls hand_shapes HO ltac:(lia)) as (a & E).
  - intros q Hq. destruct Hp as [-> | ->]; [discriminate|]. injection Hq as <-. cbn [List.length nth Nat.add]. split; [reflexivity|]. rewrite Rminus_eq_0, Rabs_R0. split; [lra|]. split; [lra|].
    intros i j Hij Hj. do 5 (destruct i as [|i]; [do 5 (destruct j as [|j]; [try lia; cbn [nth]; lra|]); lia|]). lia.
  - repeat constructor; unfold known_var; cbn; tauto.
  - repeat constructor.
  - intros s Hs. cbn in Hs. destruct Hs as [E|[E|[]]]; [injection E as <-|discriminate]. repeat constructor; unfold known_var; cbn; tauto.
  - exists a, [0; 1/4; 1/2; 3/4; 1]. split; [exact HO|]. split; [exact hand_shapes|]. split; [repeat constructor|]. split; [exact E|]. split; [repeat constructor; cbn; lra|]. split; [reflexivity|]. split; [exact hand_derivatives|].
    split. { destruct Hp as [-> | ->]; [|reflexivity]. split; [reflexivity|]. intros i Hi. do 5 (destruct i as [|i]; [cbn [nth INR]; lra|]). lia. }
    split; [exact the_loop_flies|].
    destruct (the_facts (fun _ => [-1; 1/3]) R hand_drone (default_drone 4 pts loop_scales) None (981 / 100) loop_calls a HO (ltac:(cbn; lia)) (ltac:(discriminate)) (drone_model_ok _ _ _ _ hand_shapes) E (ltac:(repeat constructor))) as (o & fm & pl & ops & h & F).
    pose proof (fa_o _ _ _ _ _ _ _ _ _ _ _ _ _ F) as EO. subst o. pose proof (fa_built _ _ _ _ _ _ _ _ _ _ _ _ _ F) as BU. pose proof (fa_tr _ _ _ _ _ _ _ _ _ _ _ _ _ F) as TR. pose proof (fa_ns _ _ _ _ _ _ _ _ _ _ _ _ _ F) as NS.
    injection TR as TR. rewrite <- TR in NS. exact (plan_vector _ 4 pts (a_o a) _ _ _ _ 10 the_loop BU hand_shapes NS).
Qed.
Print Assumptions C53_nonvacuous.
