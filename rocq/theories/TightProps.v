(** C08, C10, C13, C35, C37, C38, C47, C55, C59: refused names and indices, fresh objects, declared names. *)
From Verif Require Import Base RBase TreeModel UtilsModel UtilsProofs UtilsProofs2 IoModel NlpModel NlpProofs ConvModel ConvSpec ConvProps NumpyModel NumpySpec NumpyProps CfgModel TirModel TirProps PacModel BrachModel.
Import ListNotations.
Open Scope R_scope.

Lemma index_of_none : forall n l, ~ In n l -> UtilsModel.index_of n l = None.
Proof. intros n l. induction l as [|x l IH]; intro H; [reflexivity|]. cbn. destruct (String.eqb_spec n x) as [->|N]; [exfalso; apply H; now left|]. rewrite IH; [reflexivity|]. intro K. apply H. now right. Qed.

(** A name that is not a variable of its group has no index: looking it up is refused (KeyError), for stage variables at every stage there is, and for globals. *)
Theorem C08_unknown_names : forall op g n s,
  (~ In n (gnames op) -> index_at op "global" n s = Raise KeyError) /\
  (g <> "global"%string -> (- Z.of_nat (num_stages op) <= s < Z.of_nat (num_stages op))%Z -> ~ In (g ^^ "." ^^ n)%string (stage_var_names op) -> index_at op g n s = Raise KeyError).
Proof.
  intros op g n s. split.
  - intro H. unfold index_at. cbn [String.eqb Ascii.eqb Bool.eqb]. unfold enum_get. rewrite (index_of_none _ _ H). reflexivity.
  - intros Hg Hs H. unfold index_at. destruct (String.eqb_spec g "global") as [->|_]; [contradiction|]. unfold norm_stage.
    destruct (Z.ltb_spec (Z.of_nat (num_stages op) - 1) s); [lia|]. destruct (Z.ltb_spec s (- Z.of_nat (num_stages op))); [lia|]. cbn [orb bind]. unfold enum_get. now rewrite (index_of_none (svname g n) _ H).
Qed.
Print Assumptions C08_unknown_names.
Example C08_unknown_nonvacuous : exists op, make_dvo [("states", ["x"; "y"]); ("inputs", ["u"])]%string 2 3 ["states"; "inputs"]%string ["T"]%string = Ok op /\
  index_at op "global" "T" 0%Z = Ok 15%nat /\ index_at op "global" "x" 0%Z = Raise KeyError /\ index_at op "inputs" "u" 1%Z = Ok 5%nat /\ index_at op "inputs" "x" 1%Z = Raise KeyError.
Proof. eexists. split; [vm_compute; reflexivity|]. now vm_compute. Qed.

(** A vector that is too short for the variable is refused with IndexError. *)
Theorem C10_short_vector : forall A op (x : list A) g n s i, index_at op g n s = Ok i -> ((List.length x <= i)%nat <-> UtilsModel.get_var op x g n s = Raise IndexError).
Proof.
  intros A op x g n s i H. unfold UtilsModel.get_var, array_get. rewrite H. cbn [bind]. split.
  - intro L. apply nth_error_None in L. now rewrite L.
  - intro E. destruct (nth_error x i) eqn:N; [discriminate|]. now apply nth_error_None.
Qed.
Print Assumptions C10_short_vector.

Lemma gather_ones : forall n l v, gather (ones n) l = Ok v -> v = ones (List.length l) /\ List.length v = List.length l.
Proof.
  intros n l. unfold gather. induction l as [|i l IH]; intros v H; [injection H as <-; now split|]. cbn [mapM] in H. destruct (nth_error (ones n) i) as [w|] eqn:N; [|discriminate]. cbn [bind] in H.
  destruct (mapM _ l) as [r|] eqn:E; [|discriminate]. cbn in H. injection H as <-. destruct (IH r eq_refl) as [-> _]. apply nth_error_In, repeat_spec in N. subst w. split; [reflexivity|]. unfold ones. cbn. now rewrite repeat_length.
Qed.
Lemma mapM_first_error : forall A B (f : A -> result B) l1 a l2 e, (forall y, In y l1 -> exists b, f y = Ok b) -> f a = Raise e -> mapM f (l1 ++ a :: l2) = Raise e.
Proof. intros A B f l1 a l2 e H E. induction l1 as [|y l1 IH]; cbn; [now rewrite E|]. destruct (H y ltac:(now left)) as [b ->]. cbn. rewrite IH; [reflexivity|]. intros z Hz. apply H. now right. Qed.
(** An objective that was just built evaluates the functions it was given: no scale is in force. *)
Theorem C13_fresh_objective : forall nin f g h hs o x, make_obj nin f g h hs = Ok o -> List.length x = nin ->
  obj_objective o x = f x /\ (List.length (g x) = nin -> obj_gradient o x = g x) /\
  (List.length (fst (match hs with Some s => s | None => dense_structure nin nin end)) = List.length (h x) -> List.length (snd (match hs with Some s => s | None => dense_structure nin nin end)) = List.length (h x) -> obj_hessian o x = h x).
Proof.
  intros nin f g h hs o x H L. unfold make_obj, obj_update_hess_scales in H. cbn [o_in o_hr o_hc o_nin o_f o_g o_h] in H. set (hs' := match hs with Some s => s | None => dense_structure nin nin end) in *.
  destruct (gather (ones nin) (fst hs')) as [a|] eqn:EA; [|discriminate]. cbn [bind] in H. destruct (gather (ones nin) (snd hs')) as [b|] eqn:EB; [|discriminate]. cbn [bind] in H. injection H as <-.
  destruct (gather_ones _ _ _ EA) as [EA' _]. destruct (gather_ones _ _ _ EB) as [EB' _]. cbn [obj_objective obj_gradient obj_hessian o_f o_g o_h o_in o_hs].
  unfold obj_objective, obj_gradient, obj_hessian. cbn [o_f o_g o_h o_in o_hs].
  assert (vmul x (ones nin) = x) as E by (rewrite <- L; apply vmul_ones). rewrite E. split; [reflexivity|]. split; [intro G; rewrite <- (vmul_ones (g x)) at 2; now rewrite G|].
  intros H1 H2. assert (map (fun v => 1 / v) (vmul a b) = ones (List.length (h x))) as ->; [|apply vdiv_ones].
  rewrite EA', EB', H1, H2. clear. induction (List.length (h x)) as [|k IH]; [reflexivity|]. cbn. unfold ones in IH. rewrite IH. f_equal. lra.
Qed.
Print Assumptions C13_fresh_objective.
Example C13_fresh_nonvacuous : exists o, make_obj 2 (fun x => vget 0 x * vget 1 x) (fun x => [vget 1 x; vget 0 x]) (fun _ => [1]) (Some ([0%nat], [1%nat])) = Ok o /\
  obj_objective o [3; 5] = 3 * 5 /\ obj_gradient o [3; 5] = [5; 3] /\ obj_hessian o [3; 5] = [1].
Proof.
  destruct (make_obj 2 (fun x => vget 0 x * vget 1 x) (fun x => [vget 1 x; vget 0 x]) (fun _ => [1]) (Some ([0%nat], [1%nat]))) as [o|] eqn:E; [|discriminate E].
  destruct (C13_fresh_objective _ _ _ _ _ o [3; 5] E eq_refl) as (H1 & H2 & H3). exists o. split; [reflexivity|]. split; [exact H1|]. split; [now apply H2|now apply H3].
Qed.

(** A mesh shorter than the number of stages is refused with IndexError, whatever the model. *)
Theorem C35_short_mesh : forall P (u : unitp P) op nmesh scale_fn p x, u_nin u = num_var_stage op -> (0 < num_var_stage op)%nat -> (List.length nmesh < num_stages op)%nat -> List.length x = num_dec op ->
  conv_constraints u op nmesh scale_fn p x = Raise IndexError /\ conv_jacobian u op nmesh scale_fn p x = Raise IndexError /\
  forall lam, List.length lam = (num_stages op * u_ncon u)%nat -> conv_hessian u op nmesh scale_fn p x lam = Raise IndexError.
Proof.
  intros P u op nmesh scale_fn p x Hw Hs HL Lx.
  pose proof (transform_ok u op (repeat 0 (num_stages op)) scale_fn p Hw Hs (repeat_length _ _) x Lx) as T.
  assert (forall B (g : nat -> result (list B)), (forall k, (k < List.length nmesh)%nat -> exists v, g k = Ok v) -> g (List.length nmesh) = Raise IndexError -> mapped (num_stages op) g = Raise IndexError) as MM.
  { intros B g G1 G2. unfold mapped. replace (num_stages op) with (List.length nmesh + S (num_stages op - List.length nmesh - 1))%nat by lia. rewrite seq_app. cbn [seq Nat.add]. rewrite (mapM_first_error _ _ _ _ _ _ IndexError); [reflexivity| |exact G2].
    intros k Hk. apply in_seq in Hk. apply G1. lia. }
  assert (lookup_idx (get_mesh nmesh scale_fn x) (List.length nmesh) = Raise IndexError) as E0.
  { unfold lookup_idx, get_mesh. assert (nth_error (map (fun m => m * scale_fn x) nmesh) (List.length nmesh) = None) as ->; [|reflexivity]. apply nth_error_None. now rewrite map_length. }
  assert (forall k, (k < List.length nmesh)%nat -> exists m, lookup_idx (get_mesh nmesh scale_fn x) k = Ok m) as E1.
  { intros k Hk. unfold lookup_idx, get_mesh. destruct (nth_error (map (fun m => m * scale_fn x) nmesh) k) eqn:N; [now eexists|]. apply nth_error_None in N. rewrite map_length in N. lia. }
  split; [|split].
  - unfold conv_constraints. rewrite T. cbn [bind rows]. rewrite map_length, seq_length. apply MM; [|now rewrite E0]. intros k Hk. destruct (E1 k Hk) as [m ->]. now eexists.
  - unfold conv_jacobian. rewrite T. cbn [bind rows]. rewrite map_length, seq_length. apply MM; [|now rewrite E0]. intros k Hk. destruct (E1 k Hk) as [m ->]. now eexists.
  - intros lam LL. unfold conv_hessian. rewrite T. cbn [bind]. rewrite LL, Nat.eqb_refl. cbn [negb rows]. rewrite map_length, seq_length.
    assert (forall k, (k < num_stages op)%nat -> exists l, lookup_idx (chunks (num_stages op) (u_ncon u) lam) k = Ok l) as E2.
    { intros k Hk. unfold lookup_idx. destruct (nth_error (chunks (num_stages op) (u_ncon u) lam) k) eqn:N; [now eexists|]. apply nth_error_None in N. rewrite chunks_length in N. lia. }
    apply MM; [|destruct (E2 (List.length nmesh) HL) as [l ->]; cbn [bind]; now rewrite E0]. intros k Hk. destruct (E2 k ltac:(lia)) as [l ->]. destruct (E1 k Hk) as [m ->]. now eexists.
Qed.
Print Assumptions C35_short_mesh.

Lemma tuple_first_error : forall L m e, mapM (pick 0) L = Raise e -> mapM (fun k => bind (mapM (pick k) L) stack_rows) (seq 0 (S m)) = Raise e.
Proof. intros L m e H. cbn [seq mapM]. now rewrite H. Qed.
(** A function that returns an array for one sample and a tuple for another (or the other way round) is refused. *)
Theorem C37_mixed_outputs : forall A P (fn : list (sarg A P) -> result out) ax (args : list (arg A P)) n l0 pre post (F : nat -> out) j,
  List.length ax = List.length args -> args = pre ++ Arr l0 :: post -> Forall (fun a => a = ANone) pre -> List.length l0 = n -> (j < n)%nat ->
  (forall i, (i < n)%nat -> exists s, at_sample i args ax s /\ fn s = Ok (F i)) ->
  ((exists v, F 0%nat = OArr v) -> (exists vs, F j = OTup vs) -> lmap fn (AxList ax) args = Raise ValueError) /\
  ((exists v vs, F 0%nat = OTup (v :: vs)) -> (exists v, F j = OArr v) -> forall m, lmap fn (AxList ax) args <> Ok m).
Proof.
  intros A P fn ax args n l0 pre post F j L Ea Hpre L0 Hj HF. unfold lmap, full_axes. rewrite L, Nat.eqb_refl. cbn [bind].
  assert (batch_size args = Ok n) as ->.
  { unfold batch_size. rewrite Ea. clear -Hpre L0. induction pre as [|a pre IH]; [simpl; now rewrite L0|]. inversion Hpre; subst. simpl. now apply IH. }
  cbn [bind]. assert (mapM (fun idx => bind (sample_args idx args ax) fn) (seq 0 n) = Ok (map F (seq 0 n))) as ->.
  { assert (forall idx, In idx (seq 0 n) -> bind (sample_args idx args ax) fn = Ok (F idx)) as HE.
    { intros idx Hi. apply in_seq in Hi. destruct (HF idx ltac:(lia)) as (s & Hs & Hf). apply sample_at in Hs; [|assumption]. rewrite Hs. exact Hf. }
    induction (seq 0 n) as [|i r IH]; [reflexivity|]. cbn [mapM map]. rewrite HE by now left. rewrite IH by (intros; apply HE; now right). reflexivity. }
  cbn [bind]. assert (In (F j) (map F (seq 0 n))) as Hin by (apply in_map, in_seq; lia).
  assert (exists r, map F (seq 0 n) = F 0%nat :: r) as [r Er] by (destruct n; [lia|]; cbn [seq map]; now eexists). split.
  - intros [v0 E0] [vs Ej]. rewrite Ej in Hin. rewrite Er, E0 in *. unfold collect. assert (mapM as_arr (OArr v0 :: r) = Raise ValueError) as ->; [|reflexivity].
    destruct Hin as [Hin|Hin]; [discriminate|]. cbn [mapM as_arr bind]. assert (mapM as_arr r = Raise ValueError) as ->; [|reflexivity]. clear -Hin. induction r as [|o r IH]; [destruct Hin|]. cbn [mapM]. destruct o as [w|w]; [|reflexivity].
    cbn [as_arr bind]. rewrite IH; [reflexivity|]. destruct Hin as [X|X]; [discriminate|exact X].
  - intros (v & vs & E0) [w Ej] m Hm. rewrite Ej in Hin. rewrite Er, E0 in *. unfold collect in Hm. cbn [List.length] in Hm.
    destruct (mapM (pick 0) (OTup (v :: vs) :: r)) as [pv|e] eqn:EP; [destruct (mapM_all_ok _ _ _ _ _ EP (OArr w) Hin) as [y Hy]; discriminate Hy|]. rewrite (tuple_first_error _ _ _ EP) in Hm. discriminate Hm.
Qed.
Print Assumptions C37_mixed_outputs.
Example C37_mixed_nonvacuous : lmap (A := nat) (P := unit) (fun s => match s with [Elem O] => Ok (OArr [1]) | _ => Ok (OTup [[1]; [2]]) end) (AxList [true]) [Arr [0; 1]%nat] = Raise ValueError /\
  lmap (A := nat) (P := unit) (fun s => match s with [Elem O] => Ok (OTup [[1]; [2]]) | _ => Ok (OArr [1]) end) (AxList [true]) [Arr [0; 1]%nat] = Raise ValueError.
Proof. now split. Qed.

(** A configuration object has exactly the fields it was made with; any other attribute, and any attribute of a plain dictionary, is an AttributeError. *)
Theorem C38_no_attribute : forall n c, (forall v, attr n c = Ok v <-> exists t d, c = PyObj t d /\ dget n d = Some v) /\ ((forall v, attr n c <> Ok v) <-> attr n c = Raise AttributeError).
Proof.
  intros n c. assert (forall v, attr n c = Ok v <-> exists t d, c = PyObj t d /\ dget n d = Some v) as H.
  { intro v. unfold attr. destruct c as [ | | | | | | |t d]; try (split; [discriminate|intros (t' & d' & E & _); discriminate E]). destruct (dget n d) as [w|] eqn:E.
    - split; [intros [= <-]; now do 2 eexists|]. intros (t' & d' & [= <- <-] & E'). congruence.
    - split; [discriminate|]. intros (t' & d' & [= <- <-] & E'). congruence. }
  split; [exact H|]. split; [|intros -> v; discriminate]. intro N. unfold attr in *. destruct c as [ | | | | | | |t d]; try reflexivity. destruct (dget n d); [exfalso; eapply N; reflexivity|reflexivity].
Qed.
Print Assumptions C38_no_attribute.

(** ** the text of a value in a tire property file: the white space around it is ignored, nothing else *)
Definition blank (c : Ascii.ascii) : Prop := In (Ascii.nat_of_ascii c) [9; 10; 11; 12; 13; 28; 29; 30; 31; 32]%nat.
Fixpoint blanks (s : string) : Prop := match s with EmptyString => True | String c r => blank c /\ blanks r end.
Lemma blank_iff : forall c, is_ws c = true <-> blank c.
Proof.
  intro c. unfold is_ws, blank. cbn [In]. rewrite !orb_true_iff, !andb_true_iff, Nat.eqb_eq, !Nat.leb_le. set (k := Ascii.nat_of_ascii c). clearbody k. lia.
Qed.
Lemma str_app_assoc : forall a b c, (a ^^ b ^^ c = (a ^^ b) ^^ c)%string.
Proof. induction a as [|x a IH]; intros; [reflexivity|]. cbn. now rewrite IH. Qed.
Lemma lstrip_parts : forall s, exists a, s = (a ^^ lstrip s)%string /\ blanks a /\ forall c r, lstrip s = String c r -> ~ blank c.
Proof.
  induction s as [|c s IH]; [exists EmptyString; repeat split; discriminate|]. cbn [lstrip]. destruct (is_ws c) eqn:E.
  - destruct IH as (a & H1 & H2 & H3). exists (String c a). cbn. rewrite <- H1. split; [reflexivity|]. split; [split; [now apply blank_iff|assumption]|assumption].
  - exists EmptyString. split; [reflexivity|]. split; [exact I|]. intros c' r [= <- <-] B. apply blank_iff in B. congruence.
Qed.
Lemma rstrip_parts : forall s, exists b, s = (rstrip s ^^ b)%string /\ blanks b /\ (forall r c, rstrip s = (r ^^ String c EmptyString)%string -> ~ blank c) /\ (forall c r, rstrip s = String c r -> exists r', s = String c r').
Proof.
  induction s as [|c s IH]; [exists EmptyString; split; [reflexivity|]; split; [exact I|]; split; [intros [|] ? H; discriminate H|discriminate]|]. destruct IH as (b & H1 & H2 & H3 & H4). cbn [rstrip]. destruct (rstrip s) as [|x t] eqn:ER.
  - destruct (is_ws c) eqn:E.
    + exists (String c b). cbn in *. split; [f_equal; exact H1|]. split; [split; [now apply blank_iff|assumption]|]. split; [intros [|] ? H; discriminate H|discriminate].
    + exists b. cbn in *. split; [f_equal; exact H1|]. split; [assumption|]. split; [|intros ? ? [= <- <-]; now eexists]. intros [|y r] c' H; cbn in H; [injection H as <-; intro B; apply blank_iff in B; congruence|]. destruct r; discriminate H.
  - exists b. cbn in *. split; [f_equal; exact H1|]. split; [assumption|]. split; [|intros ? ? [= <- <-]; now eexists]. intros [|y r] c' H; cbn in H; [discriminate H|]. injection H as <- H. now apply (H3 r c').
Qed.
Theorem C47_value_text : forall s, exists a b, s = (a ^^ strip s ^^ b)%string /\ blanks a /\ blanks b /\
  (forall c r, strip s = String c r -> ~ blank c) /\ (forall r c, strip s = (r ^^ String c EmptyString)%string -> ~ blank c).
Proof.
  intro s. destruct (lstrip_parts s) as (a & A1 & A2 & A3). destruct (rstrip_parts (lstrip s)) as (b & B1 & B2 & B3 & B4). exists a, b. unfold strip. split; [rewrite <- B1; exact A1|]. split; [assumption|]. split; [assumption|]. split; [|exact B3].
  intros c r H. destruct (B4 c r H) as [r' E]. now apply (A3 c r').
Qed.
Print Assumptions C47_value_text.
Example C47_value_nonvacuous : strip (String (Ascii.ascii_of_nat 9) "  1.5 e3 ") = "1.5 e3"%string.
Proof. reflexivity. Qed.

(** Pacejka's tire returns exactly the outputs it declares, in the declared order. *)
Theorem C55_outputs : forall opt_mode params inputs out, mf_forward opt_mode params inputs = Ok out -> keys out = mf_outputs /\ mf_outputs = ["Fx"; "Fy"; "Mx"; "My"; "Mz"; "Kxk"; "Gxa"; "Kya"; "Gyk"; "GSum"]%string.
Proof.
  intros opt_mode params inputs out H. unfold mf_forward in H.
  repeat match type of H with bind ?x _ = _ => destruct x; [|discriminate H]; cbn [bind] in H end. apply (f_equal (fun r => match r with Ok v => keys v | Raise _ => [] end)) in H. cbn [keys map fst] in H. split; [symmetry; exact H|reflexivity].
Qed.
Print Assumptions C55_outputs.

(** The brachistochrone over the distance: its states are time, speed and height, in this order; the default gravity is 9.81; the residuals of the array form follow the declared order. *)
Theorem C59_distance_names : dist_states = ["time"; "v"; "y"]%string /\ brach_default_params = [("gravity"%string, 981 / 100)] /\
  (forall params states inputs d o, dist_forward params states inputs = Ok (d, o) -> keys d = dist_states /\ o = []) /\
  forall a b c : R, array_to_dict dist_states [a; b; c] = Ok [("time"%string, a); ("v"%string, b); ("y"%string, c)].
Proof.
  split; [reflexivity|]. split; [reflexivity|]. split; [|reflexivity]. intros params states inputs d o H. unfold dist_forward in H.
  destruct (lookup_err "theta" inputs); [|discriminate H]. cbn [bind] in H. destruct (lookup_err "gravity" params); [|discriminate H]. cbn [bind] in H. destruct (lookup_err "v" states); [|discriminate H]. cbn [bind] in H.
  unfold make_dict in H. destruct (check_keys _ _); [|discriminate H]. cbn [bind] in H. injection H as <- <-. now split.
Qed.
Print Assumptions C59_distance_names.
