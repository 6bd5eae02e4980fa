(** Proofs about bounds. *)
From Coq Require Import FinFun.
From Verif Require Import Base RBase TreeModel UtilsModel UtilsProofs UtilsProofs2 NlpModel OcpModel BoundModel BoundSpec.

Lemma put_all_len : forall idx vs x, List.length (put_all idx vs x) = List.length x.
Proof.
  intros idx; induction idx as [|i idx IH]; intros [|v vs] x; try reflexivity. unfold put_all in *. simpl. rewrite IH. apply upd_length.
Qed.
Lemma put_all_miss : forall idx vs x k d, ~ In k idx -> nth k (put_all idx vs x) d = nth k x d.
Proof.
  intros idx; induction idx as [|i idx IH]; intros [|v vs] x k d H; try reflexivity. unfold put_all in *. simpl. rewrite IH by (simpl in H; tauto).
  rewrite upd_nth. destruct (Nat.eqb_spec k i); [subst; simpl in H; tauto|reflexivity].
Qed.
Lemma put_all_hit : forall idx vs x p d, NoDup idx -> List.length idx = List.length vs -> (p < List.length idx)%nat -> (nth p idx 0 < List.length x)%nat ->
  nth (nth p idx 0%nat) (put_all idx vs x) d = nth p vs d.
Proof.
  intros idx; induction idx as [|i idx IH]; intros [|v vs] x p d ND L Hp Hx; simpl in *; try lia. inversion ND; subst. change (put_all (i :: idx) (v :: vs) x) with (put_all idx vs (upd i v x)).
  destruct p as [|p].
  - rewrite put_all_miss by assumption. rewrite upd_nth, Nat.eqb_refl. apply Nat.ltb_lt in Hx. now rewrite Hx.
  - apply IH; try assumption; try lia. now rewrite upd_length.
Qed.
Lemma put_all_cases : forall idx vs x k d, NoDup idx -> List.length idx = List.length vs -> (k < List.length x)%nat ->
  (~ In k idx /\ nth k (put_all idx vs x) d = nth k x d) \/ (exists p, (p < List.length idx)%nat /\ nth p idx 0%nat = k /\ nth k (put_all idx vs x) d = nth p vs d).
Proof.
  intros idx vs x k d ND L Hk. destruct (in_dec Nat.eq_dec k idx) as [H|H].
  - right. apply (In_nth _ _ 0%nat) in H. destruct H as (p & Hp & E). exists p. split; [assumption|]. split; [assumption|]. subst k. now apply put_all_hit.
  - left. split; [assumption|]. now apply put_all_miss.
Qed.

(** lower <= upper everywhere *)
Definition blen (op : dvo) (s : bst) : Prop := List.length (lbs s) = num_dec op /\ List.length (ubs s) = num_dec op.
Definition bord (s : bst) : Prop := forall k, (k < List.length (lbs s))%nat -> eleb (nth k (lbs s) NegInf) (nth k (ubs s) PosInf) = true.

Lemma all_le_nth : forall l u i, all_le l u = true -> List.length l = List.length u -> (i < List.length l)%nat -> eleb (nth i l NegInf) (nth i u PosInf) = true.
Proof.
  intros l; induction l as [|a l IH]; intros [|b u] i H L Hi; simpl in *; try lia. unfold all_le in *. simpl in H. apply andb_true_iff in H. destruct H as [H1 H2].
  destruct i as [|i]; [assumption|]. apply IH; [assumption|lia|lia].
Qed.

Lemma put_ord : forall idx l u (x y : list ebound), NoDup idx -> List.length idx = List.length l -> List.length idx = List.length u ->
  List.length x = List.length y ->
  (forall i, (i < List.length l)%nat -> eleb (nth i l NegInf) (nth i u PosInf) = true) ->
  (forall k, (k < List.length x)%nat -> eleb (nth k x NegInf) (nth k y PosInf) = true) ->
  forall k, (k < List.length x)%nat -> eleb (nth k (put_all idx l x) NegInf) (nth k (put_all idx u y) PosInf) = true.
Proof.
  intros idx l u x y ND L1 L2 Lx H Hx k Hk. destruct (in_dec Nat.eq_dec k idx) as [Hi|Hi].
  - apply (In_nth _ _ 0%nat) in Hi. destruct Hi as (p & Hp & E). subst k. rewrite !put_all_hit by (assumption || lia). apply H. lia.
  - rewrite !put_all_miss by assumption. now apply Hx.
Qed.

(** ** indices *)
Lemma enum_ok : forall n l i, enum_get n l = Ok i -> index_of n l = Some i.
Proof. unfold enum_get. intros n l i. destruct (index_of n l); intro H; inversion H. reflexivity. Qed.

Lemma index_all_shape : forall op g n idx, dvo_ok op -> index_all op g n = Ok idx ->
  NoDup idx /\ (String.eqb g "global" = true -> List.length idx = 1%nat) /\ (String.eqb g "global" = false -> List.length idx = num_stages op).
Proof.
  intros op g n idx Hok H. unfold index_all in H. destruct (String.eqb g "global").
  - destruct (enum_get n (gnames op)) as [i|] eqn:E; [|discriminate]. inversion H; subst. split; [constructor; [simpl; tauto|constructor]|]. split; [reflexivity|discriminate].
  - destruct (enum_get _ _) as [i|] eqn:E; [|discriminate]. inversion H; subst. apply enum_ok, index_of_lt in E. rewrite stage_var_names_length in E. destruct E as [E _].
    split; [|split; [discriminate|now rewrite map_length, seq_length]].
    apply Injective_map_NoDup; [|apply seq_NoDup]. intros a b Hab. destruct (mixed_radix (num_var_stage op) i i a b E E Hab). assumption.
Qed.

Definition the_idx (op : dvo) (g n : string) (st : option Z) : result (list nat) :=
  match st with Some z => fmap (fun i => [i]) (index_at op g n z) | None => index_all op g n end.
Lemma the_idx_shape : forall op g n st idx, dvo_ok op -> the_idx op g n st = Ok idx -> NoDup idx /\
  ((match st with Some _ => true | None => false end || String.eqb g "global")%bool = true -> List.length idx = 1%nat) /\
  ((match st with Some _ => true | None => false end || String.eqb g "global")%bool = false -> List.length idx = num_stages op).
Proof.
  intros op g n st idx Hok H. destruct st as [z|]; simpl in *.
  - destruct (index_at op g n z); inversion H; subst. split; [constructor; [simpl; tauto|constructor]|]. split; [reflexivity|discriminate].
  - now apply (index_all_shape op g n).
Qed.

(** result of a successful setting: the written indices and values *)
Lemma set_ok : forall op g n st b s s', dvo_ok op -> set_var_bounds op g n st b s = Ok s' ->
  exists idx l u, the_idx op g n st = Ok idx /\ NoDup idx /\ List.length idx = List.length l /\ List.length idx = List.length u /\
    s' = {| lbs := put_all idx l (lbs s); ubs := put_all idx u (ubs s); bcs := bcs s |} /\
    (forall i, (i < List.length l)%nat -> eleb (nth i l NegInf) (nth i u PosInf) = true) /\
    match b with BSc a c => l = repeat a (List.length idx) /\ u = repeat c (List.length idx) | BAr a c => l = a /\ u = c end.
Proof.
  intros op g n st b s s' Hok H. unfold set_var_bounds in H. fold (the_idx op g n st) in H. destruct (the_idx op g n st) as [idx|] eqn:E; [|discriminate]. cbn [bind] in H.
  destruct (the_idx_shape op g n st idx Hok E) as (ND & L1 & L2). destruct b as [a c|a c].
  - destruct (eleb a c) eqn:El; [|discriminate]. inversion H; subst. exists idx, (repeat a (List.length idx)), (repeat c (List.length idx)).
    rewrite !repeat_length. repeat (split; [assumption || reflexivity|]). split; [|auto]. intros i Hi.
    assert (forall A (a e : A) n i, (i < n)%nat -> nth i (repeat a n) e = a) as NR.
    { clear. intros A a e n; induction n as [|n IH]; intros [|i] H; simpl; try lia; auto. apply IH. lia. }
    now rewrite !NR by assumption.
  - destruct (_ && _)%bool eqn:C1 in H; [discriminate|]. destruct (negb (Nat.eqb (List.length a) (List.length c))) eqn:C2; [discriminate|].
    destruct (negb (all_le a c)) eqn:C3; [discriminate|]. destruct (_ && _)%bool eqn:C4 in H; [discriminate|]. inversion H; subst.
    apply negb_false_iff in C2, C3. apply Nat.eqb_eq in C2.
    assert (List.length idx = List.length a) as LL.
    { destruct (match st with Some _ => true | None => false end || String.eqb g "global")%bool; simpl in *.
      - apply negb_false_iff, Nat.eqb_eq in C4. rewrite L1 by reflexivity. lia.
      - apply negb_false_iff, Nat.eqb_eq in C1. rewrite L2 by reflexivity. lia. }
    exists idx, a, c. repeat (split; [assumption || reflexivity || congruence|]). split; [|auto]. intros. now apply all_le_nth.
Qed.

Lemma set_inv : forall op g n st b s s', dvo_ok op -> set_var_bounds op g n st b s = Ok s' -> blen op s -> bord s -> blen op s' /\ bord s' /\ bcs s' = bcs s.
Proof.
  intros op g n st b s s' Hok H [L1 L2] HO. destruct (set_ok op g n st b s s' Hok H) as (idx & l & u & E & ND & LL & LU & -> & Hle & _).
  unfold blen, bord; simpl. rewrite !put_all_len. split; [auto|]. split; [|reflexivity]. intros k Hk. apply put_ord; try assumption. congruence.
Qed.

Lemma run_inv : forall op fs s, (forall f, In f fs -> forall s s', f s = Ok s' -> blen op s -> bord s -> blen op s' /\ bord s' /\ bcs s' = bcs s) ->
  blen op s -> bord s -> blen op (fst (run_sets fs s)) /\ bord (fst (run_sets fs s)) /\ bcs (fst (run_sets fs s)) = bcs s.
Proof.
  intros op fs; induction fs as [|f fs IH]; intros s H HL HO; simpl; [auto|]. destruct (f s) as [s'|] eqn:E; [|auto].
  destruct (H f (or_introl eq_refl) s s' E HL HO) as (A & B & C). destruct (IH s') as (A' & B' & C'); auto.
  - intros. eapply H; eauto. now right.
  - rewrite C', C. auto.
Qed.

Lemma step_inv : forall op s o, dvo_ok op -> blen op s -> bord s -> blen op (fst (bstep op s o)) /\ bord (fst (bstep op s o)).
Proof.
  intros op s o Hok HL HO.
  assert (forall s, blen op s -> bord s -> blen op (fst (apply_bcs op s)) /\ bord (fst (apply_bcs op s))) as HA.
  { intros s1 A B. unfold apply_bcs. destruct (run_inv op (map (fun c => set_var_bounds op (cg c) (cn c) (Some (cstage c)) (cv c)) (bcs s1)) s1) as (X & Y & _); auto.
    intros f Hf. apply in_map_iff in Hf. destruct Hf as (c & <- & _). intros. eapply set_inv; eauto. }
  destruct o as [bs|l|g n st b]; cbn [bstep].
  - unfold update_bounds. destruct (run_inv op (map (fun b => set_var_bounds op (bg b) (bn b) None (bv b)) bs) s) as (X & Y & _); auto.
    { intros f Hf. apply in_map_iff in Hf. destruct Hf as (c & <- & _). intros. eapply set_inv; eauto. }
    destruct (run_sets _ s) as [s1 [?|?]]; simpl in *; [now apply HA|auto].
  - unfold update_bcs. apply HA; assumption.
  - destruct (run_inv op [set_var_bounds op g n st b] s) as (X & Y & _); auto. intros f [<-|[]]. intros. eapply set_inv; eauto.
Qed.

Lemma init_inv : forall op, blen op (init_bounds op) /\ bord (init_bounds op).
Proof.
  intro op. unfold blen, bord, init_bounds; simpl. rewrite !repeat_length. split; [auto|]. intros k Hk.
  assert (forall A (a e : A) n i, (i < n)%nat -> nth i (repeat a n) e = a) as NR.
  { clear. intros A a e n; induction n as [|n IH]; intros [|i] H; simpl; try lia; auto. apply IH. lia. }
  now rewrite !NR.
Qed.

Lemma brun_inv : forall op ops, dvo_ok op -> blen op (brun op ops) /\ bord (brun op ops).
Proof.
  intros op ops Hok. unfold brun. destruct (init_inv op) as [A B]. revert A B. generalize (init_bounds op). induction ops as [|o ops IH]; intros s A B; simpl; [auto|].
  destruct (step_inv op s o Hok A B). now apply IH.
Qed.

(** ** which slots a setting writes *)
Definition slot (op : dvo) (g n : string) (s k : nat) : Prop := (s < num_stages op)%nat /\ index_at op g n (Z.of_nat s) = Ok k.

Lemma slot_cases : forall op g n s k, slot op g n s k ->
  (g = "global" /\ exists i, index_of n (gnames op) = Some i /\ (i < num_global_var op)%nat /\ k = (num_all_stage_var op + i)%nat) \/
  (g <> "global" /\ exists i, index_of (svname g n) (stage_var_names op) = Some i /\ (i < num_var_stage op)%nat /\ k = (i + s * num_var_stage op)%nat).
Proof.
  intros op g n s k [Hs H]. unfold index_at in H. destruct (String.eqb_spec g "global") as [->|Hg].
  - left. split; [reflexivity|]. destruct (enum_get n (gnames op)) as [i|] eqn:E; [|discriminate]. inversion H; subst. exists i. apply enum_ok in E. split; [assumption|].
    apply index_of_lt in E. destruct E. auto.
  - right. split; [assumption|]. rewrite norm_stage_nat in H by assumption. cbn [bind] in H. destruct (enum_get _ _) as [i|] eqn:E; [|discriminate]. inversion H; subst. exists i.
    apply enum_ok in E. split; [assumption|]. apply index_of_lt in E. rewrite stage_var_names_length in E. destruct E. auto.
Qed.
Lemma slot_lt : forall op g n s k, slot op g n s k -> (k < num_dec op)%nat.
Proof.
  intros op g n s k H. pose proof H as [Hs _]. destruct (slot_cases op g n s k H) as [(_ & i & _ & Hi & ->)|(_ & i & _ & Hi & ->)]; unfold num_dec; [lia|].
  unfold num_all_stage_var. assert ((s + 1) * num_var_stage op <= num_stages op * num_var_stage op)%nat by (apply Nat.mul_le_mono_r; lia). lia.
Qed.

Lemma append_inj_l : forall p a b, String.append p a = String.append p b -> a = b.
Proof. induction p as [|c p IH]; simpl; intros a b H; [assumption|]. inversion H. now apply IH. Qed.
Lemma svname_global : forall n m, svname "global" n = svname "global" m -> n = m.
Proof. intros n m H. unfold svname in H. apply append_inj_l in H. now inversion H. Qed.

(** no stage variable of an OCP has a full name starting with "global." *)
Lemma not_global_name : forall op n, sgroups op = implicit_inputs -> ~ In (svname "global" n) (stage_var_names op).
Proof.
  intros op n E H. unfold stage_var_names in H. rewrite E in H. unfold implicit_inputs in H. apply in_flat_map in H. destruct H as (g & Hg & H). apply in_map_iff in H. destruct H as (m & H & _).
  simpl in Hg. destruct Hg as [<-|[<-|[<-|[<-|[]]]]]; unfold svname in H; simpl in H; discriminate.
Qed.

Lemma norm_stage_eq : forall op z s, (s < num_stages op)%nat ->
  (match norm_stage op z with Ok s' => Nat.eqb s' s | Raise _ => false end = (Z.eqb z (Z.of_nat s) || Z.eqb z (Z.of_nat s - Z.of_nat (num_stages op)))%bool).
Proof.
  intros op z s Hs. unfold norm_stage. set (ns := Z.of_nat (num_stages op)). assert (0 < ns)%Z by (unfold ns; lia).
  destruct (Z.ltb_spec (ns - 1) z).
  - simpl. symmetry. apply orb_false_iff. split; apply Z.eqb_neq; lia.
  - destruct (Z.ltb_spec z (- ns)).
    + simpl. symmetry. apply orb_false_iff. split; apply Z.eqb_neq; lia.
    + simpl. destruct (Z_lt_le_dec z 0).
      * assert (z mod ns = z + ns)%Z as -> by (symmetry; apply (Z.mod_unique_pos z ns (-1)); lia).
        destruct (Nat.eqb_spec (Z.to_nat (z + ns)) s); symmetry; [apply orb_true_iff|apply orb_false_iff]; [|split]; rewrite ?Z.eqb_eq, ?Z.eqb_neq; lia.
      * rewrite Z.mod_small by lia.
        destruct (Nat.eqb_spec (Z.to_nat z) s); symmetry; [apply orb_true_iff|apply orb_false_iff]; [|split]; rewrite ?Z.eqb_eq, ?Z.eqb_neq; lia.
Qed.

Definition get_b (s : bst) (k : nat) : ebound * ebound := (nth k (lbs s) NegInf, nth k (ubs s) PosInf).

Lemma nth_repeat_lt : forall A (a e : A) n i, (i < n)%nat -> nth i (repeat a n) e = a.
Proof. intros A a e n; induction n as [|n IH]; intros [|i] H; simpl; try lia; auto. apply IH. lia. Qed.

Lemma set_spec : forall op c s s' g n t k, dvo_ok op -> sgroups op = implicit_inputs -> blen op s ->
  set_var_bounds op (k_g c) (k_n c) (k_stage c) (k_v c) s = Ok s' -> slot op g n t k ->
  get_b s' k = if about op g n t c then value_for g t c else get_b s k.
Proof.
  intros op c s s' g n t k Hok HG [LL1 LL2] H Hsl. pose proof (slot_lt op g n t k Hsl) as Hk. pose proof Hsl as [Ht _].
  destruct (set_ok op _ _ _ _ s s' Hok H) as (idx & l & u & E & ND & LL & LU & -> & Hle & Hv). clear H.
  (* position of k among idx *)
  assert ((~ In k idx -> get_b {| lbs := put_all idx l (lbs s); ubs := put_all idx u (ubs s); bcs := bcs s |} k = get_b s k) /\
          (forall p, (p < List.length idx)%nat -> nth p idx 0%nat = k -> get_b {| lbs := put_all idx l (lbs s); ubs := put_all idx u (ubs s); bcs := bcs s |} k = (nth p l NegInf, nth p u PosInf))) as [Hmiss Hhit].
  { unfold get_b; simpl. split; [intro; now rewrite !put_all_miss|]. intros p Hp <-. rewrite !put_all_hit by (assumption || lia). reflexivity. }
  assert (forall p, (p < List.length idx)%nat -> (nth p l NegInf, nth p u PosInf) = match k_v c with BSc a b => (a, b) | BAr a b => (nth p a NegInf, nth p b PosInf) end) as HV.
  { intros p Hp. destruct (k_v c) as [a b|a b]; destruct Hv as [-> ->]; [|reflexivity]. now rewrite !nth_repeat_lt. }
  unfold about, value_for.
  assert (svname (k_g c) (k_n c) <> svname g n -> ~ In k idx) as Hdiff.
  { intros Hne Hin. apply (In_nth _ _ 0%nat) in Hin. destruct Hin as (p & Hp & Ep).
    unfold the_idx, index_all, index_at in E.
    destruct (slot_cases op g n t k Hsl) as [(-> & i & Ei & Hi & Ek)|(Hg & i & Ei & Hi & Ek)].
    - destruct (String.eqb_spec (k_g c) "global") as [Eg|Hg'].
      + destruct (enum_get (k_n c) (gnames op)) as [j|] eqn:Ej; [|destruct (k_stage c); discriminate]. apply enum_ok in Ej.
        assert (idx = [num_all_stage_var op + j]%nat) by (destruct (k_stage c); simpl in E; congruence). subst idx. simpl in Hp. destruct p; [|lia]. simpl in Ep.
        assert (i = j) by lia. subst j. apply index_of_lt in Ei, Ej. destruct Ei as [_ Ei], Ej as [_ Ej]. apply Hne. rewrite Eg. congruence.
      + assert (forall q, In q idx -> (q < num_all_stage_var op)%nat) as Hq.
        { destruct (k_stage c) as [z|].
          - destruct (norm_stage op z) as [s0|] eqn:Es; [|discriminate]. cbn [bind fmap] in E. destruct (enum_get _ _) as [j|] eqn:Ej; [|discriminate]. inversion E; subst. intros q [<-|[]].
            apply enum_ok, index_of_lt in Ej. rewrite stage_var_names_length in Ej. destruct Ej as [Ej _]. unfold norm_stage in Es. destruct (_ || _)%bool eqn:Ez in Es; [discriminate|]. inversion Es; subst.
            assert (Z.to_nat (z mod Z.of_nat (num_stages op)) < num_stages op)%nat as Hlt by (pose proof (Z.mod_pos_bound z (Z.of_nat (num_stages op)) ltac:(lia)); lia).
            unfold num_all_stage_var. revert Hlt. generalize (Z.to_nat (z mod Z.of_nat (num_stages op))) as q. intros q Hlt. assert ((q + 1) * num_var_stage op <= num_stages op * num_var_stage op)%nat by (apply Nat.mul_le_mono_r; lia). lia.
          - destruct (enum_get _ _) as [j|] eqn:Ej; [|discriminate]. inversion E; subst. apply enum_ok, index_of_lt in Ej. rewrite stage_var_names_length in Ej. destruct Ej as [Ej _].
            intros q Hq. apply in_map_iff in Hq. destruct Hq as (s0 & <- & Hs0). apply in_seq in Hs0. unfold num_all_stage_var. assert ((s0 + 1) * num_var_stage op <= num_stages op * num_var_stage op)%nat by (apply Nat.mul_le_mono_r; lia). lia. }
        specialize (Hq k). rewrite <- Ep in Hq at 1. specialize (Hq (nth_In _ _ Hp)). lia.
    - destruct (String.eqb_spec (k_g c) "global") as [Eg|Hg'].
      + destruct (enum_get (k_n c) (gnames op)) as [j|] eqn:Ej; [|destruct (k_stage c); discriminate].
        assert (idx = [num_all_stage_var op + j]%nat) by (destruct (k_stage c); simpl in E; congruence). subst idx. simpl in Hp. destruct p; [|lia]. simpl in Ep.
        unfold num_all_stage_var in Ep. assert ((t + 1) * num_var_stage op <= num_stages op * num_var_stage op)%nat by (apply Nat.mul_le_mono_r; lia). lia.
      + destruct (enum_get (svname (k_g c) (k_n c)) (stage_var_names op)) as [j|] eqn:Ej;
          [|destruct (k_stage c) as [z|]; [destruct (norm_stage op z)|]; discriminate].
        apply enum_ok in Ej. pose proof (index_of_lt _ _ _ Ej) as [Hj Ej2]. rewrite stage_var_names_length in Hj. pose proof (index_of_lt _ _ _ Ei) as [_ Ei2].
        assert (exists s0, k = (j + s0 * num_var_stage op)%nat) as [s0 Es0].
        { destruct (k_stage c) as [z|].
          - destruct (norm_stage op z) as [s0|]; [|discriminate]. cbn in E. injection E as <-. simpl in Hp. destruct p; [|lia]. simpl in *. eauto.
          - cbn in E. injection E as <-. rewrite map_length, seq_length in Hp. rewrite (nth_indep _ 0%nat (j + 0 * num_var_stage op)%nat) in Ep by (now rewrite map_length, seq_length).
            rewrite (map_nth (fun s => j + s * num_var_stage op)%nat (seq 0 (num_stages op)) 0%nat p) in Ep. eauto. }
        destruct (mixed_radix (num_var_stage op) i j t s0 Hi Hj ltac:(lia)) as [-> _]. congruence. }
  destruct (String.eqb_spec (svname (k_g c) (k_n c)) (svname g n)) as [Esv|Hne].
  2: { cbn [andb]. apply Hmiss. now apply Hdiff. }
  cbn [andb]. unfold the_idx, index_all, index_at in E.
  destruct (slot_cases op g n t k Hsl) as [(-> & i & Ei & Hi & Ek)|(Hg & i & Ei & Hi & Ek)].
  - (* global *)
    rewrite String.eqb_refl. cbn [orb]. destruct (String.eqb_spec (k_g c) "global") as [Eg|Hg'].
    + rewrite Eg in Esv. apply svname_global in Esv. rewrite Esv in E. unfold enum_get in E. rewrite Ei in E. cbn in E.
      assert (idx = [k]) by (destruct (k_stage c); simpl in E; congruence). subst idx.
      rewrite (Hhit 0%nat) by (simpl; auto). rewrite HV by (simpl; lia). destruct (k_v c), (k_stage c); reflexivity.
    + exfalso. assert (In (svname "global" n) (stage_var_names op)) as Hin; [|now apply (not_global_name op n HG)].
      rewrite <- Esv. destruct (enum_get (svname (k_g c) (k_n c)) (stage_var_names op)) as [j|] eqn:Ej;
          [|destruct (k_stage c) as [z|]; [destruct (norm_stage op z)|]; discriminate].
      apply enum_ok, index_of_lt in Ej. destruct Ej. eapply nth_error_In; eauto.
  - destruct (String.eqb_spec g "global"); [contradiction|]. cbn [orb].
    destruct (String.eqb_spec (k_g c) "global") as [Eg|Hg'].
    + exfalso. apply (not_global_name op (k_n c) HG). rewrite <- Eg, Esv. apply index_of_lt in Ei. destruct Ei. eapply nth_error_In; eauto.
    + rewrite Esv in E. unfold enum_get in E. rewrite Ei in E. destruct (k_stage c) as [z|] eqn:Ez.
      * pose proof (norm_stage_eq op z t Ht) as NS. destruct (norm_stage op z) as [s0|]; [|discriminate]. cbn in E. inversion E; subst idx. rewrite <- NS.
        destruct (Nat.eqb_spec s0 t) as [->|Hst].
        -- rewrite (Hhit 0%nat) by (simpl; auto). rewrite HV by (simpl; lia). destruct (k_v c); reflexivity.
        -- apply Hmiss. intros [Hin|[]]. rewrite Ek in Hin. destruct (mixed_radix (num_var_stage op) i i s0 t Hi Hi Hin). contradiction.
      * cbn in E. inversion E; subst idx. rewrite (Hhit t).
        -- rewrite HV by (now rewrite map_length, seq_length). destruct (k_v c); reflexivity.
        -- now rewrite map_length, seq_length.
        -- rewrite (nth_indep _ 0%nat (i + 0 * num_var_stage op)%nat) by (now rewrite map_length, seq_length).
           rewrite (map_nth (fun s => i + s * num_var_stage op)%nat (seq 0 (num_stages op)) 0%nat t). rewrite seq_nth by assumption. simpl. now rewrite Ek.
Qed.

Lemma find_app : forall A (f : A -> bool) l m, find f (l ++ m) = match find f l with Some a => Some a | None => find f m end.
Proof. intros A f l m; induction l as [|a l IH]; simpl; [reflexivity|]. destruct (f a); auto. Qed.

Lemma last_about_app : forall op g n s a b, last_about op g n s (a ++ b) = match last_about op g n s b with Some c => Some c | None => last_about op g n s a end.
Proof. intros. unfold last_about. rewrite rev_app_distr. apply find_app. Qed.

Definition do_set (op : dvo) (c : setting) : bst -> result bst := set_var_bounds op (k_g c) (k_n c) (k_stage c) (k_v c).

Lemma run_spec : forall op cs s s' g n t k, dvo_ok op -> sgroups op = implicit_inputs -> blen op s -> bord s ->
  run_sets (map (do_set op) cs) s = (s', Ok tt) -> slot op g n t k ->
  blen op s' /\ bord s' /\ bcs s' = bcs s /\
  get_b s' k = match last_about op g n t cs with Some c => value_for g t c | None => get_b s k end.
Proof.
  intros op cs; induction cs as [|c cs IH]; intros s s' g n t k Hok HG HL HO H Hsl; simpl in H.
  - inversion H; subst. auto.
  - destruct (do_set op c s) as [s1|] eqn:E; [|discriminate].
    destruct (set_inv op _ _ _ _ s s1 Hok E HL HO) as (HL1 & HO1 & HB1).
    destruct (IH s1 s' g n t k Hok HG HL1 HO1 H Hsl) as (A & B & C & D). split; [assumption|]. split; [assumption|]. split; [congruence|].
    change (c :: cs) with ([c] ++ cs). rewrite last_about_app. rewrite D. destruct (last_about op g n t cs); [reflexivity|].
    rewrite (set_spec op c s s1 g n t k Hok HG HL E Hsl). unfold last_about. simpl. destruct (about op g n t c); reflexivity.
Qed.
