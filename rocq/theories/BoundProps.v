(** C26: bounds of the decision variables under every history of calls. *)
From Verif Require Import Base RBase TreeModel UtilsModel UtilsProofs UtilsProofs2 CollocModel CollocProps NlpModel MeshModel OcpModel OcpProofs OcpSpec OcpProps
  BoundModel BoundSpec BoundProofs.

(** *** which values a BoundConfig accepts *)
Lemma all_le_iff : forall l u, List.length l = List.length u ->
  (all_le l u = true <-> forall i, (i < List.length l)%nat -> eleb (nth i l NegInf) (nth i u PosInf) = true).
Proof.
  intros l u L. split; [intros; now apply all_le_nth|]. revert u L. induction l as [|a l IH]; intros [|b u] L H; simpl in *; try lia; [reflexivity|].
  unfold all_le. simpl. apply andb_true_iff. split; [apply (H 0%nat); lia|]. apply IH; [lia|]. intros i Hi. apply (H (S i)). lia.
Qed.

(** accepted: two scalars with lower <= upper, or two one-dimensional arrays of the same length with lower <= upper everywhere;
    ill-typed pairs are a TypeError, everything else an AssertionError; the values are stored as given *)
Theorem C26_bound_config : forall g n lb ub,
  (forall c, make_bound_config g n lb ub = Ok c -> bg c = g /\ bn c = n /\
     ((exists l u, lb = PScalar l /\ ub = PScalar u /\ bv c = BSc l u /\ eleb l u = true) \/
      (exists l u, lb = PArray 1 l /\ ub = PArray 1 u /\ bv c = BAr l u /\ List.length l = List.length u /\
         forall i, (i < List.length l)%nat -> eleb (nth i l NegInf) (nth i u PosInf) = true))) /\
  (forall l u, lb = PScalar l -> ub = PScalar u -> eleb l u = true -> make_bound_config g n lb ub = Ok {| bg := g; bn := n; bv := BSc l u |}) /\
  (forall l u, lb = PArray 1 l -> ub = PArray 1 u -> List.length l = List.length u ->
     (forall i, (i < List.length l)%nat -> eleb (nth i l NegInf) (nth i u PosInf) = true) -> make_bound_config g n lb ub = Ok {| bg := g; bn := n; bv := BAr l u |}) /\
  (forall e, make_bound_config g n lb ub = Raise e ->
     e = match lb, ub with PScalar _, PScalar _ | PArray _ _, PArray _ _ => AssertionError | _, _ => TypeError end).
Proof.
  intros g n lb ub. split; [|split; [|split]].
  - intros c H. unfold make_bound_config in H. destruct (check_bound_values lb ub) as [v|] eqn:E; [|discriminate]. simpl in H. injection H as <-. simpl.
    split; [reflexivity|]. split; [reflexivity|]. unfold check_bound_values in E. destruct lb as [l|dl l|], ub as [u|du u|]; try discriminate.
    + left. destruct (eleb l u) eqn:El; [|discriminate]. injection E as <-. eauto 6.
    + right. destruct (Nat.eqb_spec dl 1); [|discriminate]. destruct (Nat.eqb_spec du 1); [|discriminate]. cbn [andb negb] in E.
      destruct (Nat.eqb_spec (List.length l) (List.length u)); [|discriminate]. cbn [negb] in E. destruct (all_le l u) eqn:Ea; [|discriminate]. injection E as <-. subst.
      exists l, u. repeat split; auto. intros. now apply all_le_nth.
  - intros l u -> -> H. unfold make_bound_config, check_bound_values. now rewrite H.
  - intros l u -> -> L H. unfold make_bound_config, check_bound_values. simpl. rewrite (proj2 (Nat.eqb_eq _ _) L). cbn [negb]. apply all_le_iff in H; [|assumption]. now rewrite H.
  - intros e H. unfold make_bound_config in H. destruct (check_bound_values lb ub) as [v|e'] eqn:E; [discriminate|]. simpl in H. injection H as <-. unfold check_bound_values in E.
    destruct lb as [l|dl l|], ub as [u|du u|]; try (injection E as <-; reflexivity).
    + destruct (eleb l u); [discriminate|]. now injection E as <-.
    + destruct (negb _); [now injection E as <-|]. destruct (negb _); [now injection E as <-|]. destruct (all_le l u); [discriminate|]. now injection E as <-.
Qed.
Print Assumptions C26_bound_config.

(** *** lower <= upper, whatever is called, also when calls raise *)
Theorem C26_lower_le_upper : forall roots tn tns n st inp con pts fixed o ops, built roots tn tns n st inp con pts fixed o ->
  let s := brun (oc_op o) ops in
  List.length (lbs s) = num_dec (oc_op o) /\ List.length (ubs s) = num_dec (oc_op o) /\
  forall k, (k < num_dec (oc_op o))%nat -> eleb (nth k (lbs s) NegInf) (nth k (ubs s) PosInf) = true.
Proof.
  intros roots tn tns n st inp con pts fixed o ops Hb s. destruct (built_ok _ _ _ _ _ _ _ _ _ _ Hb) as (K & _).
  destruct (brun_inv (oc_op o) ops (oo_dvo o K)) as [[L1 L2] H]. fold s in L1, L2, H. repeat split; auto. intros k Hk. apply H. lia.
Qed.
Print Assumptions C26_lower_le_upper.

(** *** values after a history of successful calls *)
Lemma history_spec : forall op ops s g n t k, dvo_ok op -> sgroups op = implicit_inputs -> blen op s -> bord s -> all_succeed op s ops -> slot op g n t k ->
  get_b (fold_left (fun s o => fst (bstep op s o)) ops s) k = match last_about op g n t (effective (bcs s) ops) with Some c => value_for g t c | None => get_b s k end.
Proof.
  intros op ops; induction ops as [|o ops IH]; intros s g n t k Hok HG HL HO HA Hsl; [reflexivity|]. simpl in HA. destruct HA as [HS HA]. simpl.
  destruct (step_inv op s o Hok HL HO) as [HL1 HO1]. rewrite (IH _ g n t k Hok HG HL1 HO1 HA Hsl). clear IH HA.
  assert (forall s0 s1, blen op s0 -> bord s0 -> apply_bcs op s0 = (s1, Ok tt) -> bcs s1 = bcs s0 /\ get_b s1 k = match last_about op g n t (map of_bc (bcs s0)) with Some c => value_for g t c | None => get_b s0 k end) as AB.
  { intros s0 s1 A B H. unfold apply_bcs in H. destruct (run_spec op (map of_bc (bcs s0)) s0 s1 g n t k Hok HG A B) as (_ & _ & X & Y); auto. now rewrite map_map. }
  destruct o as [bs|l|g' n' st b]; cbn [bstep effective] in *.
  - unfold update_bounds in *. destruct (run_sets _ s) as [s1 [[]|e]] eqn:E; [|discriminate]. 
    destruct (run_spec op (map of_bound bs) s s1 g n t k Hok HG HL HO ltac:(now rewrite map_map) Hsl) as (A1 & B1 & C1 & D1).
    destruct (apply_bcs op s1) as [s2 r] eqn:E2. simpl in *. subst r. destruct (AB s1 s2 A1 B1 E2) as [X Y]. rewrite X, C1 in *. rewrite !last_about_app. rewrite Y, D1.
    destruct (last_about op g n t (effective (bcs s) ops)); [reflexivity|]. destruct (last_about op g n t (map of_bc (bcs s))); reflexivity.
  - unfold update_bcs in *. destruct (apply_bcs op _) as [s2 r] eqn:E2. simpl in *. subst r. 
    destruct (AB {| lbs := lbs s; ubs := ubs s; bcs := bcs s ++ l |} s2 HL HO E2) as [X Y]. simpl in X, Y. rewrite X. rewrite last_about_app, Y.
    destruct (last_about op g n t (effective _ ops)); [reflexivity|]. destruct (last_about op g n t (map of_bc _)); reflexivity.
  - simpl in HS |- *. destruct (set_var_bounds op g' n' st b s) as [s1|] eqn:E; [|discriminate]. simpl.
    set (c := {| k_g := g'; k_n := n'; k_stage := st; k_v := b |}). pose proof (set_spec op c s s1 g n t k Hok HG HL E Hsl) as X.
    destruct (set_inv op _ _ _ _ s s1 Hok E HL HO) as (_ & _ & ->). change (c :: effective (bcs s) ops) with ([c] ++ effective (bcs s) ops). rewrite last_about_app.
    destruct (last_about op g n t (effective (bcs s) ops)); [reflexivity|]. rewrite X. unfold last_about. simpl. destruct (about op g n t c); reflexivity.
Qed.

Lemma get_b_at : forall op s g n t k b, dvo_ok op -> blen op s -> slot op g n t k -> get_b s k = b -> bounds_at op s g n t b.
Proof.
  intros op s g n t k b Hok [L1 L2] Hsl <-. pose proof (slot_lt op g n t k Hsl). destruct Hsl as [_ Hi]. exists k. split; [assumption|]. unfold get_b. simpl.
  split; apply nth_error_nth'; lia.
Qed.
Lemma has_slot : forall op g n t, (t < num_stages op)%nat -> has_var op g n -> exists k, slot op g n t k.
Proof.
  intros op g n t Ht Hv. unfold slot, index_at. assert (forall l a, In a l -> exists i, enum_get a l = Ok i) as EG.
  { intros l a H. unfold enum_get. destruct (index_of a l) eqn:E; [eauto|]. exfalso. revert H E. clear. induction l as [|b l IH]; simpl; [tauto|]. intros [->|H]; [now rewrite String.eqb_refl|].
    destruct (String.eqb a b); [discriminate|]. destruct (index_of a l); [discriminate|auto]. }
  destruct Hv as [[-> H]|[Hg H]].
  - rewrite String.eqb_refl. destruct (EG _ _ H) as [i ->]. simpl. eauto.
  - destruct (String.eqb_spec g "global"); [contradiction|]. rewrite norm_stage_nat by assumption. destruct (EG _ _ H) as [i ->]. simpl. eauto.
Qed.

(** every variable has, at every stage, the value of the last setting about it that took effect; infinite bounds if there is none *)
Theorem C26_history : forall roots tn tns n st inp con pts fixed o ops g nm s, built roots tn tns n st inp con pts fixed o ->
  let op := oc_op o in
  all_succeed op (init_bounds op) ops -> has_var op g nm -> (s < num_stages op)%nat ->
  bounds_at op (brun op ops) g nm s
    match last_about op g nm s (effective [] ops) with Some c => value_for g s c | None => (NegInf, PosInf) end.
Proof.
  intros roots tn tns n st inp con pts fixed o ops g nm s Hb op HA Hv Hs. destruct (built_ok _ _ _ _ _ _ _ _ _ _ Hb) as (K & _). pose proof (oo_dvo o K) as Hok. fold op in Hok.
  destruct (has_slot op g nm s Hs Hv) as [k Hk]. destruct (brun_inv op ops Hok) as [HL _]. destruct (init_inv op) as [HL0 HO0].
  apply (get_b_at op _ g nm s k); auto. unfold brun. rewrite (history_spec op ops (init_bounds op) g nm s k Hok (oo_sg o K) HL0 HO0 HA Hk). simpl.
  destruct (last_about _ _ _ _ _); [reflexivity|]. unfold get_b, init_bounds; simpl. pose proof (slot_lt _ _ _ _ _ Hk). now rewrite !nth_repeat_lt.
Qed.
Print Assumptions C26_history.

Lemma effective_expected : forall op g n s ops known, ops <> [] -> no_direct ops ->
  last_about op g n s (effective known ops) = match last_about op g n s (map of_bc known ++ all_bcs ops) with Some c => Some c | None => last_about op g n s (all_bounds ops) end.
Proof.
  intros op g n s ops; induction ops as [|o ops IH]; intros known Hne Hnd; [congruence|]. clear Hne.
  assert (no_direct ops) as Hnd' by (intros x Hx; apply Hnd; now right). pose proof (Hnd o (or_introl eq_refl)) as Ho.
  destruct o as [bs|l|]; [| |destruct Ho]; unfold all_bcs, all_bounds; cbn [effective flat_map]; fold (all_bcs ops); fold (all_bounds ops); rewrite ?app_nil_l.
  - destruct ops as [|o2 ops].
    + simpl. rewrite !app_nil_r. rewrite last_about_app. destruct (last_about op g n s (map of_bc known)); reflexivity.
    + rewrite !last_about_app. rewrite IH by (discriminate || assumption). rewrite last_about_app.
      destruct (last_about op g n s (all_bcs (o2 :: ops))); [reflexivity|]. destruct (last_about op g n s (map of_bc known)); [reflexivity|].
      destruct (last_about op g n s (all_bounds (o2 :: ops))); reflexivity.
  - rewrite map_app. destruct ops as [|o2 ops].
    + simpl. rewrite !app_nil_r. destruct (last_about op g n s (map of_bc known ++ map of_bc l)); reflexivity.
    + rewrite last_about_app. rewrite IH by (discriminate || assumption). rewrite map_app, app_assoc. rewrite (last_about_app _ _ _ _ (map of_bc known ++ map of_bc l)).
      destruct (last_about op g n s (all_bcs (o2 :: ops))); [reflexivity|]. 
      destruct (last_about op g n s (map of_bc known ++ map of_bc l)); [reflexivity|]. destruct (last_about op g n s (all_bounds _)); reflexivity.
Qed.

(** with only update_bounds and update_boundary_conditions calls, in any order: the last boundary condition about the variable at that stage wins,
    else the last bound about it, else it is unbounded *)
Theorem C26_values : forall roots tn tns n st inp con pts fixed o ops g nm s, built roots tn tns n st inp con pts fixed o ->
  let op := oc_op o in
  all_succeed op (init_bounds op) ops -> no_direct ops -> has_var op g nm -> (s < num_stages op)%nat ->
  bounds_at op (brun op ops) g nm s (expected op (all_bounds ops) (all_bcs ops) g nm s).
Proof.
  intros roots tn tns n st inp con pts fixed o ops g nm s Hb op HA Hnd Hv Hs. pose proof (C26_history _ _ _ _ _ _ _ _ _ o ops g nm s Hb HA Hv Hs) as H. fold op in H.
  unfold expected. destruct ops as [|o1 ops]; [exact H|]. rewrite effective_expected in H by (discriminate || assumption). cbn [map app] in H.
  destruct (last_about op g nm s (all_bcs (o1 :: ops))); exact H.
Qed.
Print Assumptions C26_values.

(** *** one direct call: set_state_bounds etc. *)
Theorem C26_set_accepts : forall roots tn tns n st inp con pts fixed o g nm stage b s, built roots tn tns n st inp con pts fixed o ->
  let op := oc_op o in
  (exists s', set_var_bounds op g nm stage b s = Ok s') <->
  (has_var op g nm /\ (g <> "global" -> match stage with Some z => stage_in_range op z | None => True end) /\
   match b with
   | BSc l u => eleb l u = true
   | BAr l u => List.length l = List.length u /\ (forall i, (i < List.length l)%nat -> eleb (nth i l NegInf) (nth i u PosInf) = true) /\
       List.length l = match stage with Some _ => 1%nat | None => if String.eqb g "global" then 1%nat else num_stages op end
   end).
Proof.
  intros roots tn tns n st inp con pts fixed o g nm stage b s Hb op.
  assert ((exists idx, the_idx op g nm stage = Ok idx) <-> (has_var op g nm /\ (g <> "global" -> match stage with Some z => stage_in_range op z | None => True end))) as HI.
  { assert (forall l a, In a l <-> exists i, enum_get a l = Ok i) as EG.
    { intros l a. split.
      - intro H. unfold enum_get. destruct (index_of a l) eqn:E; [eauto|]. exfalso. revert H E. clear. induction l as [|b l IH]; simpl; [tauto|]. intros [->|H]; [now rewrite String.eqb_refl|].
        destruct (String.eqb a b); [discriminate|]. destruct (index_of a l); [discriminate|auto].
      - intros [i H]. apply enum_ok, index_of_lt in H. destruct H. eapply nth_error_In; eauto. }
    unfold the_idx, index_all, index_at, has_var. destruct (String.eqb_spec g "global") as [->|Hg].
    - rewrite (EG (gnames op) nm). split.
      + intros [idx H]. split; [|tauto]. left. split; [reflexivity|]. destruct (enum_get nm (gnames op)); [eauto|]. destruct stage; discriminate.
      + intros [[[_ [i H]]|[H _]] _]; [|now destruct H]. rewrite H. destruct stage; simpl; eauto.
    - rewrite (EG (stage_var_names op) (svname g nm)). destruct stage as [z|].
      + unfold norm_stage, stage_in_range. split.
        * intros [idx H]. destruct (Z.ltb_spec (Z.of_nat (num_stages op) - 1) z); [discriminate|]. destruct (Z.ltb_spec z (- Z.of_nat (num_stages op))); [discriminate|]. simpl in H.
          destruct (enum_get _ _); [|discriminate]. split; [right; eauto|]. intros _. lia.
        * intros [[[H _]|[_ [i H]]] HZ]; [contradiction|]. specialize (HZ Hg). destruct (Z.ltb_spec (Z.of_nat (num_stages op) - 1) z); [lia|].
          destruct (Z.ltb_spec z (- Z.of_nat (num_stages op))); [lia|]. simpl. rewrite H. simpl. eauto.
      + split.
        * intros [idx H]. destruct (enum_get _ _); [|discriminate]. split; [right; eauto|auto].
        * intros [[[H _]|[_ [i H]]] _]; [contradiction|]. rewrite H. simpl. eauto. }
  unfold set_var_bounds. fold (the_idx op g nm stage).
  split.
  - intros [s' H]. destruct (the_idx op g nm stage) as [idx|] eqn:E; [|discriminate]. cbn [bind] in H. destruct (proj1 HI (ex_intro _ idx eq_refl)) as [A B].
    split; [assumption|]. split; [assumption|]. destruct b as [l u|l u].
    + destruct (eleb l u); [reflexivity|discriminate].
    + destruct (_ && _)%bool eqn:C1 in H; [discriminate|]. destruct (Nat.eqb_spec (List.length l) (List.length u)) as [C2|]; [|discriminate]. cbn [negb] in H.
      destruct (all_le l u) eqn:C3; [|discriminate]. cbn [negb] in H. destruct (_ && _)%bool eqn:C4 in H; [discriminate|]. split; [assumption|]. split; [now apply all_le_iff|].
      destruct stage as [z|]; simpl in *; [now apply negb_false_iff, Nat.eqb_eq in C4|]. destruct (String.eqb g "global"); simpl in *; [now apply negb_false_iff, Nat.eqb_eq in C4|now apply negb_false_iff, Nat.eqb_eq in C1].
  - intros (A & B & C). destruct (proj2 HI (conj A B)) as [idx E]. rewrite E. cbn [bind]. destruct b as [l u|l u].
    + rewrite C. eauto.
    + destruct C as (C1 & C2 & C3). apply all_le_iff in C2; [|assumption]. rewrite (proj2 (Nat.eqb_eq _ _) C1), C2. cbn [negb].
      destruct stage as [z|]; simpl; [rewrite C3; simpl; eauto|]. destruct (String.eqb g "global"); simpl; rewrite C3, ?Nat.eqb_refl; simpl; eauto.
Qed.
Print Assumptions C26_set_accepts.

(** a direct call either succeeds, and then changes exactly the slots it is about, or raises, and then changes nothing *)
Theorem C26_direct : forall roots tn tns n st inp con pts fixed o hist g nm stage b, built roots tn tns n st inp con pts fixed o ->
  let op := oc_op o in let s := brun op hist in let c := {| k_g := g; k_n := nm; k_stage := stage; k_v := b |} in
  (forall e, snd (bstep op s (OpSet g nm stage b)) = Raise e -> fst (bstep op s (OpSet g nm stage b)) = s) /\
  (snd (bstep op s (OpSet g nm stage b)) = Ok tt -> forall g' nm' t old, has_var op g' nm' -> (t < num_stages op)%nat -> bounds_at op s g' nm' t old ->
     bounds_at op (fst (bstep op s (OpSet g nm stage b))) g' nm' t (if about op g' nm' t c then value_for g' t c else old)).
Proof.
  intros roots tn tns n st inp con pts fixed o hist g nm stage b Hb op s c. destruct (built_ok _ _ _ _ _ _ _ _ _ _ Hb) as (K & _). pose proof (oo_dvo o K) as Hok. fold op in Hok.
  destruct (brun_inv op hist Hok) as [HL HO]. fold s in HL, HO. simpl. destruct (set_var_bounds op g nm stage b s) as [s1|e1] eqn:E; simpl.
  - split; [discriminate|]. intros _ g' nm' t old Hv Ht (k & Hi & H1 & H2). assert (slot op g' nm' t k) as Hk by (split; assumption).
    destruct (set_inv op _ _ _ _ s s1 Hok E HL HO) as (HL1 & _). apply (get_b_at op s1 g' nm' t k); auto.
    rewrite (set_spec op c s s1 g' nm' t k Hok (oo_sg o K) HL E Hk). destruct (about op g' nm' t c); [reflexivity|]. unfold get_b. destruct old. simpl in *.
    now rewrite (nth_error_nth _ _ _ H1), (nth_error_nth _ _ _ H2).
  - split; [reflexivity|discriminate].
Qed.
Print Assumptions C26_direct.

(** *** a problem, used for the examples below: Trapezoidal, fixed mesh of 2 intervals, states p v, input u *)
Definition ex_o : ocp :=
  {| oc_op := {| mvn := model_names ["p"; "v"] ["u"] [] [] []; sgroups := implicit_inputs; gnames := []; nintervals := 2; nspi := 2 |};
     oc_tr := trapezoidal; oc_mesh := map (interval_mesh trapezoidal (linspace01 2)) (seq 0 2); oc_fixed := Some 5; oc_nres := 0 |}.
Lemma ex_built : built (fun _ => [-1; 1/3]) "Trapezoidal" None 2 ["p"; "v"] ["u"] [] None (Some 5) ex_o.
Proof.
  constructor; [exact (proj1 C22_nonvacuous)| |lia|discriminate]. exists [], []. unfold make_ocp, rltb. destruct (Rlt_dec 0 5); [reflexivity|lra].
Qed.
Ltac eleb_tac := cbv [eleb]; repeat (match goal with |- context [Rle_dec ?a ?b] => destruct (Rle_dec a b); [|lra] end); reflexivity.

Definition ex_hist : list bop :=
  [OpBCs [{| cstage := -1; cg := "states"; cn := "p"; cv := BSc (Fin 7) (Fin 7) |}];
   OpBounds [{| bg := "states"; bn := "p"; bv := BSc (Fin 0) (Fin 1) |}; {| bg := "inputs"; bn := "u"; bv := BAr [Fin 1; NegInf; Fin 3] [Fin 2; Fin 4; PosInf] |}]].
Lemma eleb_fin : forall a b, a <= b -> eleb (Fin a) (Fin b) = true.
Proof. intros a b H. simpl. destruct (Rle_dec a b); [reflexivity|contradiction]. Qed.
Lemma eleb_not : forall a b, b < a -> eleb (Fin a) (Fin b) = false.
Proof. intros a b H. simpl. destruct (Rle_dec a b); [lra|reflexivity]. Qed.

Lemma set_sc_eq : forall op g n st l u s idx, the_idx op g n st = Ok idx -> eleb l u = true ->
  set_var_bounds op g n st (BSc l u) s = Ok {| lbs := put_all idx (repeat l (List.length idx)) (lbs s); ubs := put_all idx (repeat u (List.length idx)) (ubs s); bcs := bcs s |}.
Proof. intros op g n st l u s idx E H. unfold set_var_bounds. fold (the_idx op g n st). rewrite E. cbn [bind]. now rewrite H. Qed.

Example C26_nonvacuous : all_succeed (oc_op ex_o) (init_bounds (oc_op ex_o)) ex_hist /\ no_direct ex_hist /\ has_var (oc_op ex_o) "states" "p" /\
  bounds_at (oc_op ex_o) (brun (oc_op ex_o) ex_hist) "states" "p" 2 (Fin 7, Fin 7) /\
  bounds_at (oc_op ex_o) (brun (oc_op ex_o) ex_hist) "states" "p" 0 (Fin 0, Fin 1) /\
  bounds_at (oc_op ex_o) (brun (oc_op ex_o) ex_hist) "inputs" "u" 1 (NegInf, Fin 4) /\
  bounds_at (oc_op ex_o) (brun (oc_op ex_o) ex_hist) "states" "v" 1 (NegInf, PosInf).
Proof.
  assert (all_succeed (oc_op ex_o) (init_bounds (oc_op ex_o)) ex_hist) as HA.
  { cbv -[Rle_dec IZR Rle]. repeat (match goal with |- context [Rle_dec ?a ?b] => destruct (Rle_dec a b); [|lra] end). auto. }
  assert (no_direct ex_hist) as HN by (intros x [<-|[<-|[]]]; exact I).
  assert (forall g n, In (g, n) [("states", "p"); ("states", "v"); ("inputs", "u")] -> has_var (oc_op ex_o) g n) as HV.
  { intros g n [E|[E|[E|[]]]]; inversion E; subst; right; (split; [discriminate|]); vm_compute; tauto. }
  split; [exact HA|]. split; [exact HN|]. split; [apply HV; simpl; tauto|].
  pose proof (fun g nm s => C26_values _ _ _ _ _ _ _ _ _ ex_o ex_hist g nm s ex_built HA HN) as V.
  repeat split.
  - exact (V "states" "p" 2%nat (HV "states" "p" ltac:(simpl; tauto)) ltac:(vm_compute; lia)).
  - exact (V "states" "p" 0%nat (HV "states" "p" ltac:(simpl; tauto)) ltac:(vm_compute; lia)).
  - exact (V "inputs" "u" 1%nat (HV "inputs" "u" ltac:(simpl; tauto)) ltac:(vm_compute; lia)).
  - exact (V "states" "v" 1%nat (HV "states" "v" ltac:(simpl; tauto)) ltac:(vm_compute; lia)).
Qed.

(** *** What fails: calls with several items are not atomic. *)
(** update_bounds with a valid item followed by an invalid one raises, but the valid item stays applied, and
    it silently replaces the boundary condition of that variable (boundary conditions are not re-applied) *)
Theorem C26_update_not_atomic_refuted : exists o, built (fun _ => [-1; 1/3]) "Trapezoidal" None 2 ["p"; "v"] ["u"] [] None (Some 5) o /\
  exists hist bs, let op := oc_op o in let s := brun op hist in
  all_succeed op (init_bounds op) hist /\ bounds_at op s "states" "p" 0 (Fin 7, Fin 7) /\
  exists e, snd (bstep op s (OpBounds bs)) = Raise e /\ bounds_at op (fst (bstep op s (OpBounds bs))) "states" "p" 0 (Fin 0, Fin 1).
Proof.
  exists ex_o. split; [exact ex_built|].
  exists [OpBCs [{| cstage := 0; cg := "states"; cn := "p"; cv := BSc (Fin 7) (Fin 7) |}]].
  exists [{| bg := "states"; bn := "p"; bv := BSc (Fin 0) (Fin 1) |}; {| bg := "states"; bn := "nonsense"; bv := BSc (Fin 0) (Fin 1) |}].
  cbv -[Rle_dec IZR Rle]. repeat (match goal with |- context [Rle_dec ?a ?b] => destruct (Rle_dec a b); [|lra] end).
  split; [auto|]. split; [exists 0%nat; auto|]. exists KeyError. split; [reflexivity|]. exists 0%nat. auto.
Qed.

(** a rejected boundary condition stays stored: every later update raises *)
Theorem C26_rejected_bc_sticks_refuted : exists o, built (fun _ => [-1; 1/3]) "Trapezoidal" None 2 ["p"; "v"] ["u"] [] None (Some 5) o /\
  exists bad, let op := oc_op o in let s := fst (bstep op (init_bounds op) (OpBCs [bad])) in
  snd (bstep op (init_bounds op) (OpBCs [bad])) = Raise KeyError /\
  snd (bstep op s (OpBounds [])) = Raise KeyError /\ forall l, snd (bstep op s (OpBCs l)) = Raise KeyError.
Proof.
  exists ex_o. split; [exact ex_built|]. exists {| cstage := 0; cg := "states"; cn := "nonsense"; cv := BSc (Fin 7) (Fin 7) |}. split; [|split]; try reflexivity.
Qed.
