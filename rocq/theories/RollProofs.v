(** Lemmas for C73: rollouts. *)
From Verif Require Import Base RBase NumpyModel NumpySpec NumpyProps RollModel RollSpec.
Import ListNotations.
Open Scope R_scope.

Section Roll.
Variable fwd : dict R -> dict R -> R -> result (dict R * dict R).
Variables (inputs : dict R) (h : R).
Lemma bump_ok : forall sd s s', mapM (bump h sd) s = Ok s' -> keys s' = keys s /\ forall nm v, dget nm s = Some v -> exists d, dget nm sd = Some d /\ dget nm s' = Some (v + h * d).
Proof using.
  intros sd s. induction s as [|[k v] s IH]; intros s' H; [injection H as <-; split; [reflexivity|discriminate]|]. cbn [mapM] in H. unfold bump at 1 in H. cbn [fst snd] in H. unfold lookup_err in H.
  destruct (dget k sd) as [d|] eqn:E; [|discriminate]. cbn [bind] in H. destruct (mapM (bump h sd) s) as [r|] eqn:ER; [|discriminate]. cbn in H. injection H as <-. destruct (IH r eq_refl) as [K V]. split; [unfold keys in *; cbn; now rewrite K|].
  intros nm w. cbn [dget]. destruct (String.eqb_spec nm k) as [->|N]; [|apply V]. intros [= <-]. exists d. split; [assumption|]. f_equal. ring.
Qed.
Lemma bump_made : forall sd s s', NoDup (keys s) -> keys s' = keys s -> (forall nm v, dget nm s = Some v -> exists d, dget nm sd = Some d /\ dget nm s' = Some (v + h * d)) -> mapM (bump h sd) s = Ok s'.
Proof using.
  intros sd s. induction s as [|[k v] s IH]; intros s' N K V; [destruct s'; [reflexivity|discriminate]|]. destruct s' as [|[k' v'] s']; [discriminate|]. cbn in K. injection K as -> K. cbn in N. inversion N as [|? ? N1 N2]; subst.
  cbn [mapM]. unfold bump at 1. cbn [fst snd]. destruct (V k v) as (d & D1 & D2); [cbn; now rewrite String.eqb_refl|]. cbn in D2. rewrite String.eqb_refl in D2. injection D2 as ->. unfold lookup_err. rewrite D1. cbn [bind].
  rewrite (IH s' N2 K); [cbn [bind fmap]; now rewrite (Rmult_comm d h)|]. intros nm w Hw. assert (nm <> k) as Hn by (intros ->; apply N1; apply dget_some_iff; now exists w). destruct (V nm w) as (d' & E1 & E2); [cbn; destruct (String.eqb_spec nm k); [contradiction|assumption]|].
  exists d'. split; [assumption|]. cbn in E2. destruct (String.eqb_spec nm k); [contradiction|assumption].
Qed.
Lemma bump_err : forall sd s e, mapM (bump h sd) s = Raise e <-> e = KeyError /\ exists nm, In nm (keys s) /\ dget nm sd = None.
Proof using.
  intros sd s e. induction s as [|[k v] s IH]; [split; [discriminate|intros (_ & nm & [] & _)]|]. cbn [mapM]. unfold bump at 1. cbn [fst snd]. unfold lookup_err. destruct (dget k sd) as [d|] eqn:E; cbn [bind].
  - destruct (mapM (bump h sd) s) as [r|e'] eqn:ER; cbn.
    + split; [discriminate|]. intros (-> & nm & [->|Hn] & Hd); [congruence|]. assert (Ok r = Raise KeyError); [|discriminate]. apply IH. split; [reflexivity|]. now exists nm.
    + split; [intros [= ->]; destruct IH as [IH _]; destruct (IH eq_refl) as (-> & nm & Hn & Hd); split; [reflexivity|]; exists nm; auto|]. intros (-> & nm & [->|Hn] & Hd); [congruence|]. apply IH. split; [reflexivity|]. now exists nm.
  - cbn. split; [intros [= <-]; split; [reflexivity|]; exists k; auto|]. now intros (-> & _).
Qed.
Definition step (path outs : nat -> dict R) (k : nat) : Prop := exists sd, fwd (path k) inputs (INR k * h) = Ok (sd, outs k) /\ keys (path (S k)) = keys (path k) /\
    forall nm v, dget nm (path k) = Some v -> exists d, dget nm sd = Some d /\ dget nm (path (S k)) = Some (v + h * d).
Lemma steps_iff : forall n a s last s' last', NoDup (keys s) -> (roll_steps fwd inputs h (seq a n) s last = Ok (s', last') <->
  exists path outs, path a = s /\ (forall k, (a <= k < a + n)%nat -> step path outs k) /\ s' = path (a + n)%nat /\ last' = match n with O => last | S m => Some (outs (a + m)%nat) end).
Proof using.
  induction n as [|n IH]; intros a s last s' last' N.
  - cbn [seq roll_steps]. split.
    + intros [= <- <-]. exists (fun _ => s), (fun _ => []). split; [reflexivity|]. split; [intros; lia|]. now split.
    + intros (path & outs & <- & _ & -> & ->). now rewrite Nat.add_0_r.
  - cbn [seq roll_steps]. split.
    + intro H. destruct (fwd s inputs (INR a * h)) as [[sd o]|] eqn:EF; [|discriminate]. cbn [bind fst snd] in H. destruct (mapM (bump h sd) s) as [s1|] eqn:EB; [|discriminate]. cbn [bind] in H.
      destruct (bump_ok _ _ _ EB) as [K V]. apply IH in H; [|now rewrite K]. destruct H as (path & outs & P0 & PS & -> & ->).
      exists (fun k => if Nat.eqb k a then s else path k), (fun k => if Nat.eqb k a then o else outs k). rewrite Nat.eqb_refl. split; [reflexivity|]. split; [|split].
      * intros k Hk. unfold step. assert (Nat.eqb (S k) a = false) as -> by (apply Nat.eqb_neq; lia). destruct (Nat.eqb_spec k a) as [->|Nk].
        -- exists sd. rewrite P0. now repeat split.
        -- apply PS. lia.
      * assert (Nat.eqb (a + S n) a = false) as -> by (apply Nat.eqb_neq; lia). f_equal. lia.
      * destruct n as [|m]; [rewrite Nat.add_0_r, Nat.eqb_refl; reflexivity|]. assert (Nat.eqb (a + S m) a = false) as -> by (apply Nat.eqb_neq; lia). do 2 f_equal. lia.
    + intros (path & outs & <- & PS & -> & ->). destruct (PS a ltac:(lia)) as (sd & EF & K & V). rewrite EF. cbn [bind fst snd]. rewrite (bump_made sd (path a) (path (S a)) N K V). cbn [bind].
      apply IH; [now rewrite K|]. exists path, outs. split; [reflexivity|]. split; [intros k Hk; apply PS; lia|]. split; [f_equal; lia|]. destruct n as [|m]; [now rewrite Nat.add_0_r|do 2 f_equal; lia].
Qed.
Lemma steps_err : forall n a s last e, NoDup (keys s) -> (roll_steps fwd inputs h (seq a n) s last = Raise e <->
  exists j path outs, (a <= j < a + n)%nat /\ path a = s /\ (forall k, (a <= k < j)%nat -> step path outs k) /\
    (fwd (path j) inputs (INR j * h) = Raise e \/ exists sd o nm, fwd (path j) inputs (INR j * h) = Ok (sd, o) /\ In nm (keys (path j)) /\ dget nm sd = None /\ e = KeyError)).
Proof using.
  induction n as [|n IH]; intros a s last e N; cbn [seq roll_steps].
  - split; [discriminate|]. intros (j & _ & _ & Hj & _). lia.
  - destruct (fwd s inputs (INR a * h)) as [[sd o]|e0] eqn:EF; cbn [bind fst snd].
    + destruct (mapM (bump h sd) s) as [s1|e1] eqn:EB; cbn [bind].
      * destruct (bump_ok _ _ _ EB) as [K V]. rewrite IH by (now rewrite K). split.
        -- intros (j & path & outs & Hj & P0 & PS & C). exists j, (fun k => if Nat.eqb k a then s else path k), (fun k => if Nat.eqb k a then o else outs k). split; [lia|]. rewrite Nat.eqb_refl. split; [reflexivity|].
           assert (Nat.eqb j a = false) as -> by (apply Nat.eqb_neq; lia). split; [|exact C]. intros k Hk. unfold step. assert (Nat.eqb (S k) a = false) as -> by (apply Nat.eqb_neq; lia). destruct (Nat.eqb_spec k a) as [->|Nk].
           ++ exists sd. rewrite P0. now repeat split.
           ++ apply PS. lia.
        -- intros (j & path & outs & Hj & P0 & PS & C). subst s. destruct (Nat.eq_dec j a) as [->|Nj].
           ++ exfalso. destruct C as [C|(sd' & o' & nm & C1 & C2 & C3 & _)]; [congruence|]. rewrite EF in C1. injection C1 as <- <-. apply dget_some_iff in C2. destruct C2 as [v Hv]. destruct (V nm v Hv) as (d & D & _). congruence.
           ++ exists j, path, outs. split; [lia|]. split; [|split; [intros k Hk; apply PS; lia|exact C]]. destruct (PS a ltac:(lia)) as (sd' & E1 & K1 & V1). rewrite EF in E1. injection E1 as <- _. rewrite (bump_made sd (path a) (path (S a)) N K1 V1) in EB. now injection EB.
      * pose proof (proj1 (bump_err sd s e1) EB) as (-> & nm & Hn & Hd). split.
        -- intros [= <-]. exists a, (fun _ => s), (fun _ => o). split; [lia|]. split; [reflexivity|]. split; [intros; lia|]. right. exists sd, o, nm. auto.
        -- intros (j & path & outs & Hj & P0 & PS & C). subst s. destruct (Nat.eq_dec j a) as [->|Nj].
           ++ destruct C as [C|(sd' & o' & nm' & C1 & C2 & C3 & ->)]; [congruence|reflexivity].
           ++ exfalso. destruct (PS a ltac:(lia)) as (sd' & E1 & K1 & V1). rewrite EF in E1. injection E1 as <- _. rewrite (bump_made sd (path a) (path (S a)) N K1 V1) in EB. discriminate.
    + split.
      * intros [= <-]. exists a, (fun _ => s), (fun _ => []). split; [lia|]. split; [reflexivity|]. split; [intros; lia|]. now left.
      * intros (j & path & outs & Hj & P0 & PS & C). subst s. destruct (Nat.eq_dec j a) as [->|Nj].
        -- destruct C as [C|(sd' & o' & nm' & C1 & _)]; [congruence|congruence].
        -- exfalso. destruct (PS a ltac:(lia)) as (sd' & E1 & _). congruence.
Qed.
End Roll.
