(** C49: aero maps. *)
From Verif Require Import Base RBase IoModel KinProps CollocProofs AeroModel.
From Coq Require Import Lra Lia Decimal DecimalString DecimalNat.
From Coq Require FinFun.

(** a network of compatible shapes from width n to width m *)
Fixpoint fits (n : nat) (ws : list (list (list R))) (m : nat) : Prop := match ws with [] => n = m | w :: r => Forall (fun row => List.length row = n) w /\ fits (List.length w) r m end.

(** ** tanh *)
Lemma tanh_bound : forall x, -1 < tanh x < 1.
Proof.
  intro x. unfold tanh, sinh, cosh. pose proof (exp_pos x). pose proof (exp_pos (- x)). assert (0 < (exp x + exp (- x)) / 2) by lra.
  assert ((exp x - exp (- x)) / 2 / ((exp x + exp (- x)) / 2) * ((exp x + exp (- x)) / 2) = (exp x - exp (- x)) / 2) as E by (field; lra).
  split; apply (Rmult_lt_reg_r ((exp x + exp (- x)) / 2)); try assumption; rewrite E; lra.
Qed.
Lemma tanh_odd : forall x, tanh (- x) = - tanh x.
Proof. intro x. unfold tanh, sinh, cosh. rewrite Ropp_involutive. pose proof (exp_pos x). pose proof (exp_pos (- x)). field. lra. Qed.
(** ** matrix times vector *)
Lemma matvec_ok : forall m v, Forall (fun row => List.length row = List.length v) m -> matvec m v = Ok (map (fun row => vdot row v) m).
Proof. intros m v H. unfold matvec. induction H as [|row m E _ IH]; [reflexivity|]. cbn [mapM map]. rewrite E, Nat.eqb_refl, IH. reflexivity. Qed.
Lemma matvec_bad : forall m v, ~ Forall (fun row => List.length row = List.length v) m -> matvec m v = Raise ValueError.
Proof.
  intros m v H. unfold matvec. induction m as [|row m IH]; [exfalso; apply H; constructor|]. cbn [mapM]. destruct (Nat.eqb_spec (List.length row) (List.length v)) as [E|N]; [|reflexivity].
  rewrite IH; [reflexivity|]. intro F. apply H. now constructor.
Qed.
Lemma vdot_opp : forall a v, List.length a = List.length v -> vdot a (map Ropp v) = - vdot a v.
Proof. induction a as [|x a IH]; intros [|y v] E; try discriminate; [unfold vdot; cbn; ring|]. unfold vdot, vmul in *. cbn. injection E as E. rewrite IH by exact E. ring. Qed.

(** ** the network *)
(** A network whose layers fit returns as many numbers as its last layer has rows, each strictly between -1 and 1. *)
Theorem C49_mlp : forall ws x m, ws <> [] -> fits (List.length x) ws m -> exists y, mlp x ws = Ok y /\ List.length y = m /\ Forall (fun v => -1 < v < 1) y.
Proof.
  unfold mlp. induction ws as [|w ws IH]; intros x m N F; [contradiction|]. cbn [fits] in F. destruct F as [Fw Fr]. cbn [foldM]. rewrite (matvec_ok w x Fw). cbn [fmap]. set (y1 := map tanh (map (fun row => vdot row x) w)). assert (List.length y1 = List.length w) as L1 by (unfold y1; now rewrite !map_length).
  assert (Forall (fun v => -1 < v < 1) y1) as B1 by (unfold y1; apply Forall_forall; intros v Hv; apply in_map_iff in Hv; destruct Hv as (u & <- & _); apply tanh_bound).
  destruct ws as [|w2 ws]; [exists y1; cbn; cbn in Fr; repeat split; [congruence|exact B1]|]. apply IH; [discriminate|]. now rewrite L1.
Qed.
Print Assumptions C49_mlp.
(** There are no bias terms: reversing the input reverses the output, and no input gives no output. *)
Theorem C49_mlp_odd : forall ws x m y, fits (List.length x) ws m -> mlp x ws = Ok y -> mlp (map Ropp x) ws = Ok (map Ropp y).
Proof.
  unfold mlp. induction ws as [|w ws IH]; intros x m y F E; [cbn in *; now injection E as <-|]. cbn [fits] in F. destruct F as [Fw Fr]. cbn [foldM] in *. rewrite (matvec_ok w x Fw) in E. rewrite (matvec_ok w (map Ropp x)) by (now rewrite map_length). cbn [fmap] in *.
  replace (map tanh (map (fun row => vdot row (map Ropp x)) w)) with (map Ropp (map tanh (map (fun row => vdot row x) w))); [apply (IH _ m); [now rewrite !map_length|exact E]|].
  rewrite !map_map. apply map_ext_in. intros row Hr. rewrite vdot_opp; [symmetry; apply tanh_odd|]. rewrite Forall_forall in Fw. now apply Fw.
Qed.
Print Assumptions C49_mlp_odd.
(** Layers compose; a layer whose width does not fit raises ValueError. *)
Theorem C49_mlp_layers : forall ws1 ws2 x, mlp x (ws1 ++ ws2) = bind (mlp x ws1) (fun y => mlp y ws2).
Proof. unfold mlp. induction ws1 as [|w ws1 IH]; intros ws2 x; [reflexivity|]. rewrite <- app_comm_cons. cbn [foldM]. destruct (matvec w x) as [y|e]; cbn [fmap]; [apply IH|reflexivity]. Qed.
Print Assumptions C49_mlp_layers.
Theorem C49_mlp_shape : forall w ws x, ~ Forall (fun row => List.length row = List.length x) w -> mlp x (w :: ws) = Raise ValueError.
Proof. intros w ws x H. unfold mlp. cbn [foldM]. now rewrite (matvec_bad w x H). Qed.
Print Assumptions C49_mlp_shape.

(** ** the gaussian process *)
Lemma rbf_bound : forall x y, 0 < rbf x y <= 1.
Proof.
  intros x y. unfold rbf. split; [apply exp_pos|]. rewrite <- exp_0. assert (0 <= sqdist x y) as H. { unfold sqdist. generalize (vsub x y). intro l. induction l as [|a l IH]; [cbn; lra|]. cbn. nra. }
  destruct H as [H|H]; [left; apply exp_increasing; lra|right; rewrite <- H; f_equal; ring].
Qed.
Lemma vdot_bound : forall a k, List.length a = List.length k -> Forall (fun v => 0 < v <= 1) k -> Rabs (vdot a k) <= rsum (map Rabs a).
Proof.
  induction a as [|x a IH]; intros [|y k] E F; try discriminate; [unfold vdot; cbn; rewrite Rabs_R0; lra|]. inversion F as [|? ? Fy Fk]; subst. injection E as E. unfold vdot, vmul in *. cbn [map2 rsum map]. eapply Rle_trans; [apply Rabs_triang|]. apply Rplus_le_compat; [|now apply IH]. rewrite Rabs_mult, (Rabs_right y) by lra. pose proof (Rabs_pos x). nra.
Qed.
(** Every output is the weighted sum of exp(-|x - p|^2) over the points p, so never larger than the sum of the weights' magnitudes. *)
Theorem C49_gp : forall x points alpha, Forall (fun p => List.length p = List.length x) points -> Forall (fun row => List.length row = List.length points) alpha ->
  exists y, gp x points alpha = Ok y /\ List.length y = List.length alpha /\
  forall j, (j < List.length alpha)%nat -> vget j y = rsum (map2 (fun a p => a * exp (- rsum (map (fun d => d * d) (vsub p x)))) (nth j alpha []) points) /\ Rabs (vget j y) <= rsum (map Rabs (nth j alpha [])).
Proof.
  intros x points alpha Fp Fa. unfold gp. assert (forallb (fun p => Nat.eqb (List.length p) (List.length x)) points = true) as -> by (apply forallb_forall; intros p Hp; rewrite Forall_forall in Fp; apply Nat.eqb_eq; now apply Fp).
  rewrite matvec_ok by (now rewrite map_length). eexists. split; [reflexivity|]. split; [apply map_length|]. intros j Hj. unfold vget. rewrite nth_indep with (d' := vdot [] (map (fun p => rbf p x) points)) by (now rewrite map_length). rewrite (map_nth (fun row => vdot row (map (fun p => rbf p x) points))). set (row := nth j alpha []).
  assert (List.length row = List.length points) as Lr by (rewrite Forall_forall in Fa; apply Fa, nth_In, Hj). split.
  - clear - Lr. unfold vdot, vmul. revert Lr. generalize row as r. induction points as [|p points IH]; intros [|a r] E; try discriminate; [reflexivity|]. injection E as E. cbn. now rewrite IH.
  - apply vdot_bound; [now rewrite map_length|]. apply Forall_forall. intros v Hv. apply in_map_iff in Hv. destruct Hv as (p & <- & _). apply rbf_bound.
Qed.
Print Assumptions C49_gp.

(** ** inputs and outputs by name *)
Lemma keys_check : forall (d : dict R) names, (forall n, In n names -> exists v, dget n d = Some v) -> check_keys names (keys d) = Ok tt.
Proof.
  intros d names H. unfold check_keys. assert (forallb (fun n => mem n (keys d)) names = true) as ->; [|reflexivity]. apply forallb_forall. intros n Hn. destruct (H n Hn) as [v Hv]. unfold mem. apply existsb_exists. exists n. split; [|apply String.eqb_refl]. apply dget_some_iff. now exists v.
Qed.
Lemma three_outputs : forall a b c r, name_outputs (a :: b :: c :: r) = Ok [("Cx", a); ("Cy", b); ("Cz", c)].
Proof. reflexivity. Qed.
(** The network's (and the process's) first three results are Cx, Cy and Cz; the inputs are taken by name, in the order front, rear, yaw, whatever their order in the call; too few results are an error. *)
Theorem C49_names : forall inputs f r y, dget "front_ride_height" inputs = Some f -> dget "rear_ride_height" inputs = Some r -> dget "yaw" inputs = Some y ->
  (forall params, mlp_aero params inputs = bind (mlp [f; r; y] (dict_to_list params)) name_outputs) /\ (forall points alpha, gp_aero points alpha inputs = bind (gp [f; r; y] points alpha) name_outputs) /\
  (forall coeff, name_outputs coeff = match coeff with a :: b :: c :: _ => Ok [("Cx", a); ("Cy", b); ("Cz", c)] | _ => Raise IndexError end).
Proof.
  intros inputs f r y Hf Hr Hy. assert (make_vector aero_inputs inputs = Ok [f; r; y]) as E.
  { unfold make_vector. rewrite keys_check; [|intros n [<-|[<-|[<-|[]]]]; eauto]. cbn [bind aero_inputs mapM]. now rewrite (lookup_ok _ _ _ _ Hf), (lookup_ok _ _ _ _ Hr), (lookup_ok _ _ _ _ Hy). }
  split; [intro params; unfold mlp_aero; now rewrite E|]. split; [intros points alpha; unfold gp_aero; now rewrite E|]. intros [|a [|b [|c l]]]; reflexivity.
Qed.
Print Assumptions C49_names.
Theorem C49_missing_input : forall inputs n, In n ["front_ride_height"; "rear_ride_height"; "yaw"] -> dget n inputs = None ->
  (forall params, mlp_aero params inputs = Raise KeyError) /\ (forall points alpha, gp_aero points alpha inputs = Raise KeyError).
Proof.
  intros inputs n Hn Hd. assert (make_vector aero_inputs inputs = Raise KeyError) as E.
  { unfold make_vector, check_keys. destruct (forallb (fun n => mem n (keys inputs)) aero_inputs) eqn:F; [|reflexivity]. rewrite forallb_forall in F. specialize (F n Hn). unfold mem in F. apply existsb_exists in F. destruct F as (k & Hk & Ek). apply String.eqb_eq in Ek. subst k. apply dget_some_iff in Hk. destruct Hk as [v Hv]. congruence. }
  split; [intro params; unfold mlp_aero; now rewrite E|intros points alpha; unfold gp_aero; now rewrite E].
Qed.
Print Assumptions C49_missing_input.

(** ** storing the layers in the flat parameter dictionary *)
Lemma layer_name_inj : forall i j, layer_name i = layer_name j -> i = j.
Proof.
  intros i j H. unfold layer_name in H. assert (forall p a b, String.append p a = String.append p b -> a = b) as C by (induction p as [|c p IH]; intros a b E; [exact E|injection E as E; now apply IH]). apply C in H.
  apply (f_equal NilZero.uint_of_string) in H. rewrite !NilZero.usu in H by (intro Z; apply (f_equal Nat.of_uint) in Z as Z'; rewrite Unsigned.of_to in Z'; cbn in Z'; subst; discriminate Z). injection H as H. now apply Unsigned.to_uint_inj.
Qed.
Lemma layer_prefix : forall i, String.prefix weights_prefix (layer_name i) = true.
Proof. intro i. reflexivity. Qed.
Lemma dupdate_fresh : forall W (l : list (string * W)) d, NoDup (map fst l) -> (forall k, In k (map fst l) -> ~ In k (keys d)) -> dupdate d l = d ++ l.
Proof.
  intros W l. unfold dupdate. induction l as [|[k v] l IH]; intros d N F; [now rewrite app_nil_r|]. cbn [fold_left fst snd]. cbn in N. inversion N as [|? ? N1 N2]; subst. rewrite dset_notin by (apply F; now left). rewrite IH; [now rewrite <- app_assoc|exact N2|].
  intros k' Hk'. unfold keys. rewrite map_app. cbn. intro Hin. apply in_app_or in Hin. destruct Hin as [Hin|[<-|[]]]; [apply (F k'); [now right|exact Hin]|now apply N1].
Qed.
Lemma list_to_dict_eq : forall W (ws : list W), list_to_dict ws = combine (map layer_name (seq 0 (List.length ws))) ws /\ NoDup (map fst (combine (map layer_name (seq 0 (List.length ws))) ws)).
Proof.
  intros W ws. assert (map fst (combine (map layer_name (seq 0 (List.length ws))) ws) = map layer_name (seq 0 (List.length ws))) as E.
  { assert (List.length (map layer_name (seq 0 (List.length ws))) = List.length ws) as L by (now rewrite map_length, seq_length). revert L. generalize (map layer_name (seq 0 (List.length ws))) as ns. clear. induction ws as [|w ws IH]; intros [|n ns] L; try discriminate; [reflexivity|]. cbn. f_equal. apply IH. now injection L. }
  assert (NoDup (map fst (combine (map layer_name (seq 0 (List.length ws))) ws))) as N by (rewrite E; apply FinFun.Injective_map_NoDup; [exact layer_name_inj|apply seq_NoDup]). split; [|exact N]. unfold list_to_dict, dict_of_list. rewrite dupdate_fresh; [reflexivity|exact N|]. intros k _ [].
Qed.
(** The layers come back in their order from the parameter dictionary, however many there are, also next to other parameters. *)
Theorem C49_layers_round_trip : forall W (density : W) ws, dict_to_list (list_to_dict ws) = ws /\ dict_to_list (with_density density ws) = ws /\ dget "air_density" (with_density density ws) = Some density /\
  forall i, (i < List.length ws)%nat -> dget (layer_name i) (with_density density ws) = nth_error ws i.
Proof.
  intros W density ws. destruct (list_to_dict_eq W ws) as [E N]. set (l := combine (map layer_name (seq 0 (List.length ws))) ws) in *. assert (dict_to_list l = ws) as R.
  { unfold l. clear. generalize 0%nat as o. unfold dict_to_list. induction ws as [|w ws IH]; intro o; [reflexivity|]. cbn [List.length seq map combine filter fst]. rewrite layer_prefix. cbn [map snd]. now rewrite IH. }
  assert (with_density density ws = ("air_density", density) :: l) as D. { unfold with_density. rewrite E. rewrite dupdate_fresh; [reflexivity|exact N|]. intros k Hk [<-|[]]. cbn in Hk. apply in_map_iff in Hk. destruct Hk as ([k v] & Ek & Hin). cbn in Ek. subst k. apply in_combine_l in Hin. apply in_map_iff in Hin. destruct Hin as (i & Ei & _). discriminate Ei. }
  split; [now rewrite E|]. rewrite D. split; [exact R|]. split; [reflexivity|]. intros i Hi. change (dget (layer_name i) (("air_density", density) :: l)) with (dget (layer_name i) l). unfold l. clear - Hi.
  assert (forall o, (forall ws : list W, forall i, (i < List.length ws)%nat -> dget (layer_name (o + i)) (combine (map layer_name (seq o (List.length ws))) ws) = nth_error ws i)) as F; [|apply (F 0%nat ws i Hi)].
  intros o ws0. revert o. induction ws0 as [|w ws0 IH]; intros o j Hj; [cbn in Hj; lia|]. cbn [List.length seq map combine dget]. destruct j as [|j].
  - rewrite Nat.add_0_r, String.eqb_refl. reflexivity.
  - destruct (String.eqb_spec (layer_name (o + S j)) (layer_name o)) as [Q|_]; [apply layer_name_inj in Q; lia|]. replace (o + S j)%nat with (S o + j)%nat by lia. apply IH. cbn in Hj. lia.
Qed.
Print Assumptions C49_layers_round_trip.
(** A constant aero model gives back the coefficients it was configured with, whatever the ride heights and the yaw. *)
Theorem C49_constant : forall params inputs, exists out, const_aero params inputs = Ok out /\ (forall n, dget n out = dget n params) /\ forall inputs', const_aero params inputs' = Ok out.
Proof. intros params inputs. exists params. repeat split. Qed.
Print Assumptions C49_constant.
(** Exactly the parameters whose name starts with weights_layer are layers: any other parameter may be added anywhere without changing the network. *)
Lemma prefix_iff : forall p s, String.prefix p s = true <-> exists r, s = String.append p r.
Proof.
  induction p as [|c p IH]; intro s.
  - destruct s; (split; [intros _; eexists; reflexivity|reflexivity]).
  - destruct s as [|c' s]; [split; [discriminate|intros [r E]; discriminate E]|]. unfold String.prefix. destruct (Ascii.ascii_dec c c') as [<-|N]; fold String.prefix.
    + rewrite IH. split; intros [r E]; exists r; cbn in *; congruence.
    + split; [discriminate|]. intros [r E]. cbn in E. injection E as E _. congruence.
Qed.
Theorem C49_only_layers : forall W (p1 p2 : dict W) n v,
  ((exists r, n = String.append "weights_layer" r) -> dict_to_list (p1 ++ (n, v) :: p2) = dict_to_list p1 ++ v :: dict_to_list p2) /\
  (~ (exists r, n = String.append "weights_layer" r) -> dict_to_list (p1 ++ (n, v) :: p2) = dict_to_list (p1 ++ p2)).
Proof.
  intros W p1 p2 n v. unfold dict_to_list. rewrite !filter_app. cbn [filter fst]. split; intro H.
  - apply prefix_iff in H. fold weights_prefix in H. now rewrite H, map_app.
  - destruct (String.prefix weights_prefix n) eqn:E; [exfalso; apply H; now apply prefix_iff|reflexivity].
Qed.
Print Assumptions C49_only_layers.
(** The numbers in the names are not used: the same parameters in another order are another network, and any parameter with the prefix counts as a layer. *)
Theorem C49_layer_order_refuted : dict_to_list [("weights_layer_1", 10); ("weights_layer_0", 20)] = [10; 20] /\ dict_to_list [("weights_layer_0", 20); ("weights_layer_norm", 30)] = [20; 30].
Proof. split; reflexivity. Qed.
Print Assumptions C49_layer_order_refuted.
Example C49_nonvacuous : fits 3 [[[1; 0; 0]; [0; 1; 1]]; [[1; 1]; [0; 1]; [2; 0]]] 3 /\ (exists a b c, mlp_aero (with_density [] [[[1; 0; 0]; [0; 1; 1]]; [[1; 1]; [0; 1]; [2; 0]]]) [("yaw", 1); ("front_ride_height", 2); ("rear_ride_height", 3)] = Ok [("Cx", a); ("Cy", b); ("Cz", c)] /\ c = tanh (2 * tanh (1 * 2 + (0 * 3 + (0 * 1 + 0))) + (0 * tanh (0 * 2 + (1 * 3 + (1 * 1 + 0))) + 0))).
Proof. split; [cbn; repeat constructor|]. do 3 eexists. split; reflexivity. Qed.
