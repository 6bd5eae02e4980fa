(** C27: scales reach the right variables and constraint rows. *)
From Verif Require Import Base RBase TreeModel UtilsModel UtilsProofs UtilsProofs2 CollocModel CollocProps MeshModel MeshProofs NlpModel OcpModel OcpProofs OcpSpec OcpProps
  BoundModel BoundSpec BoundProofs BoundProps ScaleModel ScaleSpec ScaleProofs.

Lemma known_slot : forall roots tn tns n st inp con pts fixed o g nm (t : nat), built roots tn tns n st inp con pts fixed o ->
  known_var st inp con fixed g nm <-> In g five /\ In nm (names5 (oc_op o) g).
Proof.
  intros roots tn tns n st inp con pts fixed o g nm t Hb. destruct (built_ok _ _ _ _ _ _ _ _ _ _ Hb) as (K & _ & _ & _ & _ & G1 & G2 & _ & EF & G3 & G4 & _).
  unfold known_var, five, names5, implicit_inputs. simpl. rewrite (oo_gn o K), EF. split.
  - intros [[[-> | ->] H]|[[-> H]|[[-> H]|(-> & -> & ->)]]]; simpl; rewrite ?G1, ?G2, ?G3, ?G4; auto 10.
  - intros [[<-|[<-|[<-|[<-|[<-|[]]]]]] H]; simpl in H; rewrite ?G1, ?G2, ?G3, ?G4 in H; auto. destruct fixed; simpl in H; [tauto|]. destruct H as [<-|[]]. auto 6.
Qed.

(** after any history, a successful call gives each variable, at every stage, the last value configured for it and 1 otherwise, and this
    is what every objective and constraint has been given *)
Theorem C27_variables : forall roots tn tns n st inp con pts fixed o b h scs g nm t k, built roots tn tns n st inp con pts fixed o ->
  let s := srun o b h in
  snd (set_scales o b s scs) = Ok tt -> known_var st inp con fixed g nm -> (t < num_stages (oc_op o))%nat -> index_at (oc_op o) g nm (Z.of_nat t) = Ok k ->
  let s' := fst (set_scales o b s scs) in
  nth_error (s_dec s') k = Some (scale_for scs g nm) /\ List.length (s_dec s') = num_dec (oc_op o) /\ s_pushed s' = s_dec s'.
Proof.
  intros roots tn tns n st inp con pts fixed o b h scs g nm t k Hb s HS Hv Ht Hi s'. destruct (built_ok _ _ _ _ _ _ _ _ _ _ Hb) as (K & _).
  destruct (set_scales_ok o b s scs (oo_dvo o K) (oo_sg o K) HS) as (vs & ds & [_ _ L D] & E). unfold s'. rewrite E. simpl. split; [|auto].
  apply (known_slot _ _ _ _ _ _ _ _ _ o g nm t Hb) in Hv. destruct Hv as [H5 _]. assert (slot (oc_op o) g nm t k) as Hsl by (split; assumption).
  rewrite <- (D g nm t k H5 Hsl). apply nth_error_nth'. rewrite L. apply (slot_lt _ _ _ _ _ Hsl).
Qed.
Print Assumptions C27_variables.

(** exactly the configurations of existing variables are accepted, whatever the values *)
Theorem C27_accepts : forall roots tn tns n st inp con pts fixed o b h scs, built roots tn tns n st inp con pts fixed o ->
  snd (set_scales o b (srun o b h) scs) = Ok tt <-> forall c, In c scs -> known_var st inp con fixed (sc_g c) (sc_n c).
Proof.
  intros roots tn tns n st inp con pts fixed o b h scs Hb. destruct (built_ok _ _ _ _ _ _ _ _ _ _ Hb) as (K & _).
  pose proof (apply_iff o scs (init_var_scales o) (ones (num_dec (oc_op o))) (oo_dvo o K) (oo_sg o K) eq_refl) as A.
  transitivity (snd (apply_scales o scs (init_var_scales o) (ones (num_dec (oc_op o)))) = Ok tt).
  - unfold set_scales. destruct (apply_scales o scs _ _) as [[vs ds] [[]|e]]; simpl; split; congruence.
  - rewrite A. split; intros H c Hc; apply (known_slot _ _ _ _ _ _ _ _ _ o (sc_g c) (sc_n c) 0%nat Hb); auto.
Qed.
Print Assumptions C27_accepts.

Lemma vs_states : forall roots tn tns n st inp con pts fixed o F vs ds, built roots tn tns n st inp con pts fixed o -> sinv (oc_op o) F vs ds ->
  (List.length (vs_get "states" vs) = List.length st /\ forall c nm, nth_error st c = Some nm -> nth c (vs_get "states" vs) 0 = F "states" nm) /\
  (List.length (vs_get "con_outputs" vs) = List.length con /\ forall c nm, nth_error con c = Some nm -> nth c (vs_get "con_outputs" vs) 0 = F "con_outputs" nm).
Proof.
  intros roots tn tns n st inp con pts fixed o F vs ds Hb [_ B _ _]. destruct (built_ok _ _ _ _ _ _ _ _ _ _ Hb) as (_ & _ & _ & _ & _ & G1 & _ & _ & _ & _ & G4 & _).
  pose proof (B "states" ltac:(simpl; tauto)) as B1. pose proof (B "con_outputs" ltac:(simpl; tauto)) as B2. unfold names5 in B1, B2. simpl in B1, B2. rewrite G1 in B1. rewrite G4 in B2. auto.
Qed.

(** continuity constraint of interval i, row k, state nm (numbered as in C24_entries) is scaled by the scale of that state *)
Theorem C27_continuity : forall roots tn tns n st inp con pts fixed o h scs, built roots tn tns n st inp con pts fixed o ->
  let s := srun o false h in snd (set_scales o false s scs) = Ok tt -> let s' := fst (set_scales o false s scs) in
  List.length (s_cont s') = num_continuity_cons o /\
  forall i k c nm, (i < n)%nat -> (k < spi o - 1)%nat -> nth_error st c = Some nm ->
    nth_error (s_cont s') (i * ((spi o - 1) * List.length st) + (k * List.length st + c)) = Some (scale_for scs "states" nm).
Proof.
  intros roots tn tns n st inp con pts fixed o h scs Hb s HS s'. destruct (built_ok _ _ _ _ _ _ _ _ _ _ Hb) as (K & Hn & Hd & En & Ed & Gs & Gd & Em & _).
  destruct (set_scales_ok o false s scs (oo_dvo o K) (oo_sg o K) HS) as (vs & ds & HI & E). destruct (vs_states _ _ _ _ _ _ _ _ _ _ _ _ _ Hb HI) as [[L1 N1] _].
  unfold s'. rewrite E. simpl. rewrite len_blocks, L1, Em, En. unfold num_continuity_cons. rewrite (tr_ncon _ (oo_tr o K)), En, Ed. unfold spi. split; [lia|].
  intros i k c nm Hi Hk Hc. assert (c < List.length st)%nat as Hcl by (apply nth_error_Some; congruence). rewrite <- (N1 c nm Hc).
  assert (i * (t_stages (oc_tr o) - 1) + k < n * (t_stages (oc_tr o) - 1))%nat as Hlt.
  { assert ((i + 1) * (t_stages (oc_tr o) - 1) <= n * (t_stages (oc_tr o) - 1))%nat by (apply Nat.mul_le_mono_r; lia). lia. }
  rewrite <- (nth_blocks (vs_get "states" vs) (n * (t_stages (oc_tr o) - 1)) (i * (t_stages (oc_tr o) - 1) + k) c Hlt ltac:(lia)).
  rewrite L1. replace (i * ((t_stages (oc_tr o) - 1) * List.length st) + (k * List.length st + c))%nat with ((i * (t_stages (oc_tr o) - 1) + k) * List.length st + c)%nat by lia.
  apply nth_error_nth'. rewrite len_blocks, L1.
  assert ((i * (t_stages (oc_tr o) - 1) + k + 1) * List.length st <= n * (t_stages (oc_tr o) - 1) * List.length st)%nat by (apply Nat.mul_le_mono_r; lia). lia.
Qed.
Print Assumptions C27_continuity.

Lemma block3_nth : forall (a b c : list R) q, 
  ((q < List.length a)%nat -> nth q (a ++ b ++ c) 0 = nth q a 0) /\ ((q < List.length b)%nat -> nth (List.length a + q) (a ++ b ++ c) 0 = nth q b 0) /\
  ((q < List.length c)%nat -> nth (List.length a + List.length b + q) (a ++ b ++ c) 0 = nth q c 0).
Proof.
  intros a b c q. split; [|split]; intro H.
  - now rewrite app_nth1.
  - rewrite app_nth2 by lia. replace (List.length a + q - List.length a)%nat with q by lia. now rewrite app_nth1.
  - rewrite app_nth2 by lia. rewrite app_nth2 by lia. f_equal. lia.
Qed.

(** model algebra rows come stage by stage: one per state (its derivative equation), one per constraint output, then the residuals
    (see C34); they get the scale of the state, the scale of the constraint output, and 1 *)
Theorem C27_algebra : forall roots tn tns n st inp con pts fixed o h scs, built roots tn tns n st inp con pts fixed o ->
  let s := srun o false h in snd (set_scales o false s scs) = Ok tt -> let s' := fst (set_scales o false s scs) in
  let nr := (List.length st + List.length con + oc_nres o)%nat in
  List.length (s_alg s') = (num_stages (oc_op o) * nr)%nat /\
  forall t c, (t < num_stages (oc_op o))%nat ->
    (forall nm, nth_error st c = Some nm -> nth_error (s_alg s') (t * nr + c) = Some (scale_for scs "states" nm)) /\
    (forall nm, nth_error con c = Some nm -> nth_error (s_alg s') (t * nr + (List.length st + c)) = Some (scale_for scs "con_outputs" nm)) /\
    ((c < oc_nres o)%nat -> nth_error (s_alg s') (t * nr + (List.length st + List.length con + c)) = Some 1).
Proof.
  intros roots tn tns n st inp con pts fixed o h scs Hb s HS s' nr. destruct (built_ok _ _ _ _ _ _ _ _ _ _ Hb) as (K & _).
  destruct (set_scales_ok o false s scs (oo_dvo o K) (oo_sg o K) HS) as (vs & ds & HI & E). destruct (vs_states _ _ _ _ _ _ _ _ _ _ _ _ _ Hb HI) as [[L1 N1] [L2 N2]].
  unfold s'. rewrite E. cbn [s_alg]. set (blk := vs_get "states" vs ++ vs_get "con_outputs" vs ++ ones (oc_nres o)).
  assert (List.length blk = nr) as LB by (unfold blk; rewrite !app_length, L1, L2; unfold ones; rewrite repeat_length; unfold nr; lia).
  rewrite len_blocks, LB. split; [reflexivity|]. intros t c Ht.
  assert (forall q, (q < nr)%nat -> nth_error (concat (repeat blk (num_stages (oc_op o)))) (t * nr + q) = Some (nth q blk 0)) as HQ.
  { intros q Hq. rewrite <- LB in *. rewrite <- (nth_blocks blk (num_stages (oc_op o)) t q Ht Hq). apply nth_error_nth'. rewrite len_blocks.
    assert ((t + 1) * List.length blk <= num_stages (oc_op o) * List.length blk)%nat by (apply Nat.mul_le_mono_r; lia). lia. }
  destruct (block3_nth (vs_get "states" vs) (vs_get "con_outputs" vs) (ones (oc_nres o)) c) as (B1 & B2 & B3). fold blk in B1, B2, B3. rewrite L1 in *. rewrite L2 in *. unfold ones in B3 at 1. rewrite repeat_length in B3.
  split; [|split].
  - intros nm Hc. assert (c < List.length st)%nat by (apply nth_error_Some; congruence). rewrite HQ by (unfold nr; lia). now rewrite B1, (N1 c nm Hc).
  - intros nm Hc. assert (c < List.length con)%nat by (apply nth_error_Some; congruence). rewrite HQ by (unfold nr; lia). now rewrite B2, (N2 c nm Hc).
  - intro Hc. rewrite HQ by (unfold nr; lia). rewrite B3 by assumption. now rewrite nth_ones.
Qed.
Print Assumptions C27_algebra.

(** condensed problem: continuity rows first, then, stage by stage, the constraint outputs and the residuals *)
Theorem C27_condensed : forall roots tn tns n st inp con pts fixed o h scs, built roots tn tns n st inp con pts fixed o ->
  let s := srun o true h in snd (set_scales o true s scs) = Ok tt -> let s' := fst (set_scales o true s scs) in
  let nc := num_continuity_cons o in let nr := (List.length con + oc_nres o)%nat in
  List.length (s_alg s') = (nc + num_stages (oc_op o) * nr)%nat /\
  (forall i k c nm, (i < n)%nat -> (k < spi o - 1)%nat -> nth_error st c = Some nm ->
    nth_error (s_alg s') (i * ((spi o - 1) * List.length st) + (k * List.length st + c)) = Some (scale_for scs "states" nm)) /\
  forall t c, (t < num_stages (oc_op o))%nat ->
    (forall nm, nth_error con c = Some nm -> nth_error (s_alg s') (nc + (t * nr + c)) = Some (scale_for scs "con_outputs" nm)) /\
    ((c < oc_nres o)%nat -> nth_error (s_alg s') (nc + (t * nr + (List.length con + c))) = Some 1).
Proof.
  intros roots tn tns n st inp con pts fixed o h scs Hb s HS s' nc nr. destruct (built_ok _ _ _ _ _ _ _ _ _ _ Hb) as (K & Hn & Hd & En & Ed & Gs & Gd & Em & _).
  destruct (set_scales_ok o true s scs (oo_dvo o K) (oo_sg o K) HS) as (vs & ds & HI & E). destruct (vs_states _ _ _ _ _ _ _ _ _ _ _ _ _ Hb HI) as [[L1 N1] [L2 N2]].
  unfold s'. rewrite E. cbn [s_alg]. set (blk := vs_get "con_outputs" vs ++ ones (oc_nres o)). set (cont := concat (repeat (vs_get "states" vs) _)).
  assert (List.length cont = nc) as LC. { unfold cont, nc, num_continuity_cons. rewrite len_blocks, L1, Em, (tr_ncon _ (oo_tr o K)), Ed, En. unfold spi. lia. }
  assert (List.length blk = nr) as LB by (unfold blk; rewrite !app_length, L2; unfold ones; rewrite repeat_length; unfold nr; lia).
  rewrite app_length, len_blocks, LB, LC. split; [reflexivity|]. split.
  - intros i k c nm Hi Hk Hc. assert (c < List.length st)%nat as Hcl by (apply nth_error_Some; congruence). rewrite <- (N1 c nm Hc). unfold spi in *.
    assert (i * (t_stages (oc_tr o) - 1) + k < n * (t_stages (oc_tr o) - 1))%nat as Hlt.
    { assert ((i + 1) * (t_stages (oc_tr o) - 1) <= n * (t_stages (oc_tr o) - 1))%nat by (apply Nat.mul_le_mono_r; lia). lia. }
    rewrite <- (nth_blocks (vs_get "states" vs) (n * (t_stages (oc_tr o) - 1)) (i * (t_stages (oc_tr o) - 1) + k) c Hlt ltac:(lia)). unfold cont. rewrite Em, En.
    rewrite L1. replace (i * ((t_stages (oc_tr o) - 1) * List.length st) + (k * List.length st + c))%nat with ((i * (t_stages (oc_tr o) - 1) + k) * List.length st + c)%nat by lia.
    assert ((i * (t_stages (oc_tr o) - 1) + k + 1) * List.length st <= n * (t_stages (oc_tr o) - 1) * List.length st)%nat by (apply Nat.mul_le_mono_r; lia).
    rewrite nth_error_app1 by (rewrite len_blocks, L1; lia). apply nth_error_nth'. rewrite len_blocks, L1. lia.
  - intros t c Ht.
    assert (forall q, (q < nr)%nat -> nth_error (cont ++ concat (repeat blk (num_stages (oc_op o)))) (nc + (t * nr + q)) = Some (nth q blk 0)) as HQ.
    { intros q Hq. rewrite nth_error_app2 by lia. rewrite LC. replace (nc + (t * nr + q) - nc)%nat with (t * nr + q)%nat by lia. rewrite <- LB in *. rewrite <- (nth_blocks blk (num_stages (oc_op o)) t q Ht Hq). apply nth_error_nth'. rewrite len_blocks.
      assert ((t + 1) * List.length blk <= num_stages (oc_op o) * List.length blk)%nat by (apply Nat.mul_le_mono_r; lia). lia. }
    destruct (block3_nth (vs_get "con_outputs" vs) (ones (oc_nres o)) [] c) as (B1 & B2 & _). rewrite app_nil_r in B1, B2. fold blk in B1, B2. rewrite L2 in *. unfold ones in B2 at 1. rewrite repeat_length in B2.
    split.
    + intros nm Hc. assert (c < List.length con)%nat by (apply nth_error_Some; congruence). rewrite HQ by (unfold nr; lia). now rewrite B1, (N2 c nm Hc).
    + intro Hc. rewrite HQ by (unfold nr; lia). rewrite B2 by assumption. now rewrite nth_ones.
Qed.
Print Assumptions C27_condensed.

Example C27_nonvacuous : snd (set_scales ex_o false (srun ex_o false [[{| sc_g := "states"; sc_n := "v"; sc_v := 3 |}]]) 
    [{| sc_g := "states"; sc_n := "p"; sc_v := 2 |}; {| sc_g := "inputs"; sc_n := "u"; sc_v := 5 |}; {| sc_g := "states"; sc_n := "p"; sc_v := 4 |}]) = Ok tt /\
  known_var ["p"; "v"] ["u"] [] (Some 5) "states" "p" /\ 
  scale_for [{| sc_g := "states"; sc_n := "p"; sc_v := 2 |}; {| sc_g := "inputs"; sc_n := "u"; sc_v := 5 |}; {| sc_g := "states"; sc_n := "p"; sc_v := 4 |}] "states" "p" = 4.
Proof. split; [reflexivity|]. split; [left; simpl; auto|reflexivity]. Qed.

(** a call that raises has already replaced the decision variable scales used to convert initial guess and solution, but not the
    scales inside the objectives and constraints: the two disagree afterwards *)
Theorem C27_failed_call_refuted : exists scs, let s := fst (set_scales ex_o false (init_scales ex_o) scs) in
  snd (set_scales ex_o false (init_scales ex_o) scs) = Raise ValueError /\ nth 0 (s_dec s) 0 = 2 /\ nth 0 (s_pushed s) 0 = 1.
Proof.
  exists [{| sc_g := "states"; sc_n := "p"; sc_v := 2 |}; {| sc_g := "states"; sc_n := "nonsense"; sc_v := 2 |}]. repeat split; reflexivity.
Qed.
