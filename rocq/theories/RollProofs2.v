(** Lemmas for C73: rollouts over arrays, backends and convergence. *)
From Verif Require Import Base RBase NumpyModel NumpySpec NumpyProps CollocModel OcpSpec OrderSpec OrderProofs RollModel RollSpec RollProofs.
Import ListNotations.
Open Scope R_scope.

Section Cells.
Variable fwd : dict R -> dict R -> R -> result (dict R * dict R).
Variables (inputs : dict R) (ts : R).
Lemma read_put : forall st c v h, ~ In c (map snd st) -> read (put c v h) st = read h st.
Proof using. intros st c v h N. unfold read. apply map_ext_in. intros [k c'] Hin. cbn. f_equal. unfold put. destruct (Nat.eqb_spec c' c) as [->|]; [|reflexivity]. exfalso. apply N. apply in_map_iff. exists (k, c). now split. Qed.
Lemma bumps_off : forall sd st h h' c, foldM (bump_cell ts sd) st h = Ok h' -> ~ In c (map snd st) -> h' c = h c.
Proof using.
  intros sd st. induction st as [|[k c0] st IH]; intros h h' c H N; cbn [foldM] in H; [now injection H as ->|]. unfold bump_cell at 1 in H. cbn [fst snd] in H. destruct (lookup_err k sd) as [d|]; [|discriminate]. cbn [bind] in H.
  rewrite (IH _ _ c H); [|intro I; apply N; now right]. unfold put. destruct (Nat.eqb_spec c c0) as [->|]; [|reflexivity]. exfalso. apply N. now left.
Qed.
Lemma bumps_read : forall sd st h, NoDup (map snd st) -> match foldM (bump_cell ts sd) st h with Ok h' => mapM (bump ts sd) (read h st) = Ok (read h' st) | Raise e => mapM (bump ts sd) (read h st) = Raise e end.
Proof using.
  intros sd st. induction st as [|[k c] st IH]; intros h N; [reflexivity|]. inversion N as [|? ? N1 N2]; subst. cbn [foldM read map mapM]. unfold bump_cell at 1, bump at 1 3. cbn [fst snd]. destruct (lookup_err k sd) as [d|e]; cbn [bind]; [|reflexivity].
  specialize (IH (put c (h c + d * ts) h) N2). rewrite read_put in IH by assumption. fold (read h st). destruct (foldM (bump_cell ts sd) st (put c (h c + d * ts) h)) as [h'|e] eqn:E; rewrite IH; [|reflexivity].
  cbn [bind fmap]. rewrite (bumps_off _ _ _ _ c E N1). unfold put at 1. rewrite Nat.eqb_refl. reflexivity.
Qed.
Lemma cells_steps : forall steps st h last, NoDup (map snd st) -> match roll_cells fwd inputs ts steps st h last with
  | Ok (h', l) => roll_steps fwd inputs ts steps (read h st) last = Ok (read h' st, l) /\ forall c, ~ In c (map snd st) -> h' c = h c
  | Raise e => roll_steps fwd inputs ts steps (read h st) last = Raise e end.
Proof using.
  induction steps as [|k r IH]; intros st h last N; cbn [roll_cells roll_steps]; [now split|]. destruct (fwd (read h st) inputs (INR k * ts)) as [[sd o]|e]; cbn [bind fst snd]; [|reflexivity].
  pose proof (bumps_read sd st h N) as B. destruct (foldM (bump_cell ts sd) st h) as [h1|e] eqn:E; rewrite B; cbn [bind]; [|reflexivity].
  specialize (IH st h1 (Some o) N). destruct (roll_cells fwd inputs ts r st h1 (Some o)) as [[h' l]|e]; [|exact IH]. destruct IH as [A B']. split; [exact A|]. intros c Hc. rewrite (B' c Hc). now apply (bumps_off sd st).
Qed.
End Cells.

Section Conv.
Variables (st inp : list string).
Variable fwd : dict R -> dict R -> R -> result (dict R * dict R).
Lemma euler_local : forall (Y : nat -> R -> R) t0 h M, 0 <= h -> 0 <= M -> (forall k s, (k <= 1)%nat -> t0 <= s <= t0 + h -> derivable_pt_lim (Y k) s (Y (S k) s)) ->
  (forall s, t0 <= s <= t0 + h -> Rabs (Y 2%nat s) <= M) -> Rabs (Y 0%nat (t0 + h) - (Y 0%nat t0 + h * Y 1%nat t0)) <= M * h ^ 2.
Proof using.
  intros Y t0 h M Hh HM D B. destruct (taylor 1 Y t0 h M Hh HM D B) as (T & L & H). destruct T as [|a [|b [|? ?]]]; try discriminate.
  destruct (H 0 ltac:(lra)) as [H1 H2]. cbn in H1, H2. rewrite !Rplus_0_r in *. rewrite !Rmult_0_l in *. rewrite ?Rmult_0_r, ?Rplus_0_r in *.
  assert (forall x, Rabs x <= 0 -> x = 0) as Z by (intros x Hx; destruct (Req_dec x 0) as [|Nx]; [assumption|apply Rabs_no_R0 in Nx; pose proof (Rabs_pos x); lra]).
  apply Z in H1. apply Z in H2. destruct (H h ltac:(lra)) as [H3 _]. cbn [peval] in H3. 
  replace (Y 0%nat (t0 + h) - (Y 0%nat t0 + h * Y 1%nat t0)) with (Y 0%nat (t0 + h) - (a + h * (b + h * 0))); [exact H3|]. 
  replace a with (Y 0%nat t0) by lra. replace b with (Y 1%nat t0) by lra. ring.
Qed.
Lemma grow_steps : forall n K h M e0, 0 <= K -> 0 <= h -> 0 <= M -> 0 <= e0 -> forall e : nat -> R, e 0%nat = e0 -> (forall k, (k < n)%nat -> e (S k) = (1 + K * h) * e k + M * h ^ 2) ->
  forall k, (k <= n)%nat -> 0 <= e k <= exp (K * (INR k * h)) * (e0 + INR k * h * (M * h)).
Proof using.
  intros n K h M e0 HK Hh HM He e E0 ES. assert (0 <= K * h) as Hkh by (now apply Rmult_le_pos). assert (0 <= M * h ^ 2) as Hm by (apply Rmult_le_pos; [lra|apply pow_le; lra]).
  induction k as [|k IH]; intro Hk.
  - rewrite E0. cbn [INR]. rewrite !Rmult_0_l, Rmult_0_r, exp_0. lra.
  - specialize (IH ltac:(lia)). rewrite ES by lia. destruct IH as [I1 I2]. split; [apply Rplus_le_le_0_compat; [apply Rmult_le_pos; lra|lra]|].
    rewrite S_INR. replace (K * ((INR k + 1) * h)) with (K * h + K * (INR k * h)) by ring. rewrite exp_plus. set (x := exp (K * (INR k * h))) in *. set (w := INR k * h * (M * h)) in *.
    assert (0 <= INR k * h) by (apply Rmult_le_pos; [apply pos_INR|lra]). assert (1 <= x) as Hx by (unfold x; pose proof (exp_1x (K * (INR k * h)) ltac:(now apply Rmult_le_pos)); assert (0 <= K * (INR k * h)) by (now apply Rmult_le_pos); lra).
    assert (0 <= w) as Hw by (unfold w; apply Rmult_le_pos; [assumption|apply Rmult_le_pos; lra]). pose proof (exp_1x (K * h) Hkh) as Hy. set (y := exp (K * h)) in *.
    replace (e0 + (INR k + 1) * h * (M * h)) with ((e0 + w) + M * h ^ 2) by (unfold w; ring). rewrite Rmult_plus_distr_l. apply Rplus_le_compat.
    + rewrite Rmult_assoc. apply Rmult_le_compat; try lra.
    + rewrite <- (Rmult_1_l (M * h ^ 2)) at 1. apply Rmult_le_compat_r; [assumption|]. rewrite <- (Rmult_1_l 1). apply Rmult_le_compat; lra.
Qed.
Lemma rollout_converges : forall G K M inputs h n path outs (u : string -> R -> R) Y e0, 0 <= K -> 0 <= M -> 0 <= h -> 0 <= e0 ->
  motion st inp fwd G 0 (INR n * h) 1 M u Y -> lipschitz st fwd G K -> (forall tau, 0 <= tau <= INR n * h -> carries inp (fun nm => u nm tau) inputs) ->
  NoDup st -> keys (path 0%nat) = st -> euler_steps fwd inputs h n path outs -> (forall k, (k < n)%nat -> G (path k) inputs (INR k * h)) ->
  (forall nm v, dget nm (path 0%nat) = Some v -> Rabs (v - Y nm 0%nat 0) <= e0) ->
  forall k nm v, (k <= n)%nat -> dget nm (path k) = Some v -> Rabs (v - Y nm 0%nat (INR k * h)) <= exp (K * (INR k * h)) * (e0 + INR k * h * (M * h)).
Proof using.
  intros G K M inputs h n path outs u Y e0 HK HM Hh He [MM MS MB] Lip HU ND K0 ES HG H0.
  set (e := fix e (k : nat) : R := match k with O => e0 | S m => (1 + K * h) * e m + M * h ^ 2 end).
  assert (forall k, (k <= n)%nat -> 0 <= INR k * h <= INR n * h) as Ht by (intros k Hk; split; [apply Rmult_le_pos; [apply pos_INR|lra]|apply Rmult_le_compat_r; [lra|now apply le_INR]]).
  assert (forall k, (k <= n)%nat -> keys (path k) = st /\ forall nm v, dget nm (path k) = Some v -> Rabs (v - Y nm 0%nat (INR k * h)) <= e k) as Main.
  { induction k as [|k IH]; intro Hk; [split; [assumption|]; cbn [INR e]; rewrite Rmult_0_l; exact H0|]. destruct (IH ltac:(lia)) as [IK IE]. destruct (ES k ltac:(lia)) as (sd & EF & EK & EV). split; [now rewrite EK|].
    intros nm w Hw. assert (In nm (keys (path k))) as Hin by (rewrite <- EK; apply dget_some_iff; now exists w). destruct (proj2 (dget_some_iff _ nm (path k)) Hin) as [v Hv]. destruct (EV nm v Hv) as (d & Hd & Hw2). rewrite Hw in Hw2. injection Hw2 as ->.
    rewrite IK in Hin. set (t := INR k * h) in *. assert (0 <= t <= INR n * h) as Htk by (apply Ht; lia).
    set (ds := map (fun s => (s, Y s 0%nat t)) st). assert (forall s, In s st -> dget s ds = Some (Y s 0%nat t)) as Hds.
    { intros s Hs. unfold ds. clear -Hs. induction st as [|a l IHl]; [destruct Hs|]. cbn. destruct (String.eqb_spec s a) as [->|N]; [reflexivity|]. apply IHl. destruct Hs as [->|]; [contradiction|assumption]. }
    assert (carries st (fun s => Y s 0%nat t) ds) as Hc. { split; [unfold ds, keys; rewrite map_map; cbn; apply map_id|]. intros s x Hx. assert (In s st) as Hs. { assert (In s (keys ds)) as Hi by (apply dget_some_iff; now exists x). unfold ds, keys in Hi. rewrite map_map in Hi. cbn in Hi. now rewrite map_id in Hi. } rewrite (Hds s Hs) in Hx. now injection Hx as <-. }
    destruct (MM t ds inputs Htk Hc (HU t Htk)) as (Gd & sd' & out' & EF' & ED'). pose proof (Lip (path k) ds inputs t sd (outs k) sd' out' (e k) (HG k ltac:(lia)) Gd EF EF') as L.
    assert (Rabs (d - Y nm 1%nat t) <= K * e k) as Ld. { apply (L) with (nm := nm); [|exact Hin|exact Hd|now apply ED']. intros s x x' Hs Hx Hx'. rewrite (Hds s Hs) in Hx'. injection Hx' as <-. now apply IE. }
    assert (INR (S k) * h = t + h) as -> by (rewrite S_INR; unfold t; ring). assert (t + h <= INR n * h) as Hth by (replace (t + h) with (INR (S k) * h) by (rewrite S_INR; unfold t; ring); apply Ht; lia).
    pose proof (euler_local (Y nm) t h M Hh HM (fun j s Hj Hs => MS nm j s Hin Hj ltac:(lra)) (fun s Hs => MB nm s Hin ltac:(lra))) as HL.
    replace (v + h * d - Y nm 0%nat (t + h)) with ((v - Y nm 0%nat t) + (h * (d - Y nm 1%nat t) - (Y nm 0%nat (t + h) - (Y nm 0%nat t + h * Y nm 1%nat t)))) by ring.
    apply Rle_trans with (1 := Rabs_triang _ _). cbn [e]. replace ((1 + K * h) * e k + M * h ^ 2) with (e k + (h * (K * e k) + M * h ^ 2)) by ring. apply Rplus_le_compat; [now apply IE|].
    unfold Rminus at 1. apply Rle_trans with (1 := Rabs_triang _ _). rewrite Rabs_Ropp. apply Rplus_le_compat; [|exact HL]. rewrite Rabs_mult, (Rabs_right h) by lra. apply Rmult_le_compat_l; lra. }
  intros k nm v Hk Hv. destruct (Main k Hk) as [_ B]. apply Rle_trans with (1 := B nm v Hv). now apply (grow_steps n K h M e0 HK Hh HM He e eq_refl (fun j _ => eq_refl) k Hk).
Qed.
End Conv.

Lemma sub_tests_ok : forall fn orig bs cur, valid orig -> (bs <> [] -> cur = orig) ->
  (bs <> [] -> fst (sub_tests fn orig cur bs) = orig) /\ (bs = [] -> fst (sub_tests fn orig cur bs) = cur) /\
  Forall2 (fun asked r => backend_for orig asked (fst r) /\ snd r = match snd (fn (fst r)) with Passed => Pass | Failed => Fail | Errored => ErrorWith asked end) bs (snd (sub_tests fn orig cur bs)).
Proof.
  intros fn orig bs. induction bs as [|b bs IH]; intros cur Vo Hc; [repeat split; try constructor; intro; contradiction|]. cbn [sub_tests]. unfold sub_test. rewrite (Hc ltac:(discriminate)).
  destruct (fn (set_backend orig b)) as [left out] eqn:EF. rewrite (set_valid left orig Vo). specialize (IH orig Vo (fun _ => eq_refl)). destruct (sub_tests fn orig orig bs) as [c2 xs]. cbn in IH |- *. destruct IH as (I1 & I2 & I3). repeat split.
  - intros _. destruct bs; [now apply I2|apply I1; discriminate].
  - discriminate.
  - constructor; [|exact I3]. cbn. rewrite EF. split; [|reflexivity]. destruct (in_dec string_dec b ["jax"; "numpy"; "casadi"]%string) as [V|V]; [left; split; [exact V|now apply set_valid]|right; split; [exact V|now apply set_invalid]].
Qed.
