(** C38: configurations survive the round trip through a dictionary; invalid bounds are rejected. *)
From Verif Require Import Base RBase NlpModel BoundModel CfgModel CfgSpec.

Section Ind.
Variable P : py -> Prop.
Hypotheses (H1 : P PyNone) (H2 : forall s, P (PyStr s)) (H3 : forall v, P (PyNum v)) (H4 : forall n v, P (PyNd n v))
  (H5 : forall l, Forall P l -> P (PyList l)) (H6 : forall l, Forall P l -> P (PyTuple l))
  (H7 : forall d, Forall (fun kv => P (snd kv)) d -> P (PyDict d)) (H8 : forall c d, Forall (fun kv => P (snd kv)) d -> P (PyObj c d)).
Fixpoint py_ind2 (v : py) : P v :=
  match v with
  | PyNone => H1 | PyStr s => H2 s | PyNum x => H3 x | PyNd n x => H4 n x
  | PyList l => H5 l ((fix go l := match l return Forall P l with [] => Forall_nil _ | a :: r => Forall_cons a (py_ind2 a) (go r) end) l)
  | PyTuple l => H6 l ((fix go l := match l return Forall P l with [] => Forall_nil _ | a :: r => Forall_cons a (py_ind2 a) (go r) end) l)
  | PyDict d => H7 d ((fix go d := match d return Forall (fun kv => P (snd kv)) d with [] => Forall_nil _ | kv :: r => Forall_cons kv (py_ind2 (snd kv)) (go r) end) d)
  | PyObj c d => H8 c d ((fix go d := match d return Forall (fun kv => P (snd kv)) d with [] => Forall_nil _ | kv :: r => Forall_cons kv (py_ind2 (snd kv)) (go r) end) d)
  end.
End Ind.

Lemma asdict_plain : forall v, plain v = true -> asdict v = v.
Proof.
  assert (forall l : list py, Forall (fun v => plain v = true -> asdict v = v) l -> forallb plain l = true -> map asdict l = l) as HL.
  { induction 1 as [|v l Hv Hl IH]; [reflexivity|]. cbn [forallb map]. intro E. apply andb_prop in E. destruct E. now rewrite Hv, IH. }
  assert (forall d : list (string * py), Forall (fun kv => plain (snd kv) = true -> asdict (snd kv) = snd kv) d -> forallb (fun kv => plain (snd kv)) d = true -> map (fun kv => (fst kv, asdict (snd kv))) d = d) as HD.
  { induction 1 as [|[k v] d Hv Hd IH]; [reflexivity|]. cbn [forallb map fst snd] in *. intro E. apply andb_prop in E. destruct E. now rewrite Hv, IH. }
  induction v using py_ind2; try reflexivity; cbn [plain asdict]; intro E.
  - now rewrite HL.
  - now rewrite HL.
  - now rewrite HD.
  - discriminate.
Qed.
(** serialising twice changes nothing *)
Lemma asdict_idem : forall v, asdict (asdict v) = asdict v.
Proof.
  induction v using py_ind2; try reflexivity; cbn [asdict]; f_equal; rewrite map_map; apply map_ext_Forall; revert H; apply Forall_impl; [intros a E; exact E..| |]; intros [k a] E; cbn [fst snd] in *; now rewrite E.
Qed.

Definition ent (kw : list (string * py)) (s : string * option py) : option py := match dget (fst s) kw with Some v => Some v | None => snd s end.
Lemma fields_of_ok : forall spec kw f, fields_of spec kw = Ok f -> (forall k, In k (keys kw) -> In k (map fst spec)) /\ keys f = map fst spec /\ Forall2 (fun s e => ent kw s = Some (snd e)) spec f.
Proof.
  intros spec kw f H. unfold fields_of in H. destruct (forallb _ (keys kw)) eqn:E; [|discriminate]. split.
  { intros k Hk. rewrite forallb_forall in E. specialize (E k Hk). apply existsb_exists in E. destruct E as (y & Hy & Ey). apply String.eqb_eq in Ey. now subst. }
  clear E. revert f H. induction spec as [|[n o] spec IH]; intros f H.
  - injection H as <-. split; [reflexivity|constructor].
  - cbn [mapM fst snd] in H. unfold ent. destruct (dget n kw) as [v|] eqn:En; [|destruct o as [v|]; [|discriminate]].
    + destruct (mapM _ spec) as [r|] eqn:Er; [|discriminate]. injection H as <-. destruct (IH r eq_refl) as [K F]. split; [unfold keys in *; cbn; now rewrite K|]. constructor; [cbn; now rewrite En|assumption].
    + destruct (mapM _ spec) as [r|] eqn:Er; [|discriminate]. injection H as <-. destruct (IH r eq_refl) as [K F]. split; [unfold keys in *; cbn; now rewrite K|]. constructor; [cbn; now rewrite En|assumption].
Qed.
Lemma fields_of_self : forall spec f, NoDup (map fst spec) -> keys f = map fst spec -> fields_of spec f = Ok f.
Proof.
  intros spec f ND K. unfold fields_of. assert (forallb (fun k => existsb (String.eqb k) (map fst spec)) (keys f) = true) as ->.
  { rewrite K. apply forallb_forall. intros k Hk. apply existsb_exists. exists k. split; [assumption|apply String.eqb_refl]. }
  assert (forall g spec', (forall k v, In (k, v) spec' -> True) -> keys g = map fst spec' -> (forall k v, In (k, v) g -> dget k f = Some v) -> mapM (fun s => match dget (fst s) f with Some v => Ok (fst s, v) | None => match snd s with Some v => Ok (fst s, v) | None => Raise TypeError end end) spec' = Ok g) as G.
  { clear. induction g as [|[k v] g IH]; intros [|[n o] spec'] _ K H; try discriminate; [reflexivity|]. cbn in K. injection K as -> K. cbn [mapM fst snd]. rewrite (H n v) by now left. rewrite (IH spec'); [reflexivity|trivial|assumption|]. intros; apply H; now right. }
  apply G; [trivial|assumption|]. intros k v Hin. apply in_dget; [|assumption]. now rewrite K.
Qed.
Lemma plain_fields : forall spec kw f, fields_of spec kw = Ok f -> forallb (fun kv => plain (snd kv)) kw = true -> Forall (fun s => match snd s with Some v => plain v = true | None => True end) spec -> map (fun kv => (fst kv, asdict (snd kv))) f = f.
Proof.
  intros spec kw f H Hp Hd. apply fields_of_ok in H. destruct H as (_ & _ & F). induction F as [|s [k v] spec f He F IH]; [reflexivity|]. apply Forall_cons_iff in Hd. destruct Hd as [Hs Hd]. cbn [map fst snd]. rewrite IH by assumption. rewrite asdict_plain; [reflexivity|].
  unfold ent in He. cbn [snd] in He. destruct (dget (fst s) kw) eqn:E.
  - injection He as ->. apply dget_in in E. rewrite forallb_forall in Hp. exact (Hp _ E).
  - rewrite He in Hs. assumption.
Qed.

(** the class constructors can be applied again to what [asdict] makes of their instances *)
Lemma bound_again : forall o, built_by make_bound o -> is_dict o = false /\ is_dict (asdict o) = true /\ call_kw make_bound (asdict o) = Ok o.
Proof.
  intros o (kw & H & Hp). unfold make_bound in H. destruct (fields_of bound_spec kw) as [f|] eqn:Ef; [|discriminate]. cbn [bind] in H. destruct (dget "values" f) as [v|] eqn:Ev; [|discriminate]. cbn [bind] in H.
  destruct (check_values v) eqn:Ec; [|discriminate]. cbn [bind] in H. injection H as <-. cbn [asdict is_dict call_kw]. split; [reflexivity|]. split; [reflexivity|]. rewrite (plain_fields _ _ _ Ef Hp) by (repeat constructor).
  unfold make_bound. apply fields_of_ok in Ef. destruct Ef as (_ & K & _). rewrite fields_of_self; [|repeat constructor; simpl; intuition discriminate|assumption]. cbn [bind]. rewrite Ev. cbn [bind]. now rewrite Ec.
Qed.
Lemma plain_class_again : forall cls spec o, NoDup (map fst spec) -> Forall (fun s => match snd s with Some v => plain v = true | None => True end) spec ->
  built_by (fun kw => fmap (PyObj cls) (fields_of spec kw)) o -> is_dict o = false /\ is_dict (asdict o) = true /\ call_kw (fun kw => fmap (PyObj cls) (fields_of spec kw)) (asdict o) = Ok o.
Proof.
  intros cls spec o ND Hd (kw & H & Hp). cbn beta in H. destruct (fields_of spec kw) as [f|] eqn:Ef; [|discriminate]. cbn [fmap] in H. injection H as <-. cbn [asdict is_dict call_kw]. split; [reflexivity|]. split; [reflexivity|]. rewrite (plain_fields _ _ _ Ef Hp) by assumption.
  apply fields_of_ok in Ef. destruct Ef as (_ & K & _). now rewrite fields_of_self.
Qed.
Lemma scale_again : forall o, built_by make_scale o -> is_dict o = false /\ is_dict (asdict o) = true /\ call_kw make_scale (asdict o) = Ok o.
Proof. intros o H. apply plain_class_again; [repeat constructor; simpl; intuition discriminate|repeat constructor|assumption]. Qed.
Lemma bc_again : forall o, built_by make_bc o -> is_dict o = false /\ is_dict (asdict o) = true /\ call_kw make_bc (asdict o) = Ok o.
Proof. intros o H. apply plain_class_again; [repeat constructor; simpl; intuition discriminate|repeat constructor|assumption]. Qed.

Lemma deser_objects : forall mk l, (forall o, built_by mk o -> is_dict o = false /\ is_dict (asdict o) = true /\ call_kw mk (asdict o) = Ok o) -> Forall (built_by mk) l ->
  deserialize mk (PyTuple l) = Ok (PyTuple l) /\ deserialize mk (PyTuple (map asdict l)) = Ok (PyTuple l).
Proof.
  intros mk l Hmk F. assert (mapM (call_kw mk) (map asdict l) = Ok l) as M.
  { clear - Hmk F. induction F as [|o l Ho F IH]; [reflexivity|]. cbn [map mapM]. destruct (Hmk o Ho) as (_ & _ & ->). now rewrite IH. }
  destruct l as [|o l]; [split; reflexivity|]. apply Forall_cons_iff in F. destruct F as [Ho F]. destruct (Hmk o Ho) as (E1 & E2 & E3). split.
  - unfold deserialize. now rewrite E1.
  - cbn [map deserialize]. rewrite E2. cbn [map] in M. rewrite M. reflexivity.
Qed.

Lemma sim_shape : forall f : list (string * py), keys f = map fst sim_spec -> exists v1 v2 v3 v4 v5 v6 v7 v8 v9 v10 v11 v12 v13,
  f = [("num_intervals", v1); ("interval_points", v2); ("transcription", v3); ("is_cyclic", v4); ("non_cyclic_vars", v5); ("is_condensed", v6); ("backend", v7); ("hessian_approximation", v8);
       ("boundary_conditions", v9); ("bounds", v10); ("scales", v11); ("con_output_names", v12); ("logging_config", v13)].
Proof.
  intros f K. unfold sim_spec in K. cbn [map fst] in K. do 13 (destruct f as [|[? ?] f]; [discriminate|]). destruct f; [|discriminate]. cbn in K. injection K as -> -> -> -> -> -> -> -> -> -> -> -> ->. repeat eexists.
Qed.

(** A configuration built from documented arguments comes back from [to_dict] with every field equal, except that the logging configuration is now
    the plain dictionary of its fields; and serialising the copy gives the same dictionary again. *)
Theorem C38_roundtrip : forall kw c, documented kw -> make_sim kw = Ok c -> exists c', from_dict (to_dict c) = Ok c' /\
  (forall n, n <> "logging_config" -> attr n c' = attr n c) /\ attr "logging_config" c' = fmap asdict (attr "logging_config" c) /\ to_dict c' = to_dict c.
Proof.
  intros kw c (D1 & D2 & D3 & D4 & D5) H. unfold make_sim in H. destruct (fields_of sim_spec kw) as [f|] eqn:Ef; [|discriminate]. cbn [bind] in H. pose proof (fields_of_ok _ _ _ Ef) as (_ & K & F).
  destruct (sim_shape f K) as (v1 & v2 & v3 & v4 & v5 & v6 & v7 & v8 & v9 & v10 & v11 & v12 & v13 & ->).
  assert (forall n d v, In (n, d) sim_spec -> ent kw (n, d) = Some v -> ~ special n -> plain v = true) as PL.
  { intros n d v Hin He Hs. unfold ent in He. cbn [fst snd] in He. destruct (dget n kw) eqn:E.
    - injection He as <-. now apply (D1 n).
    - subst d. cbn in Hin. repeat (destruct Hin as [Hin|Hin]; [injection Hin as <- <-; reflexivity|]). contradiction. }
  unfold sim_spec in F. repeat match goal with X : Forall2 _ (_ :: _) (_ :: _) |- _ => let A := fresh "E" in inversion X as [|? ? ? ? A ?]; clear X; subst; cbn [snd] in A end.
  assert (plain v1 = true) as P1 by (eapply PL; [|eassumption|]; [cbn; tauto|unfold special; intuition discriminate]).
  assert (plain v2 = true) as P2 by (eapply PL; [|eassumption|]; [cbn; tauto|unfold special; intuition discriminate]).
  assert (plain v3 = true) as P3 by (eapply PL; [|eassumption|]; [cbn; tauto|unfold special; intuition discriminate]).
  assert (plain v4 = true) as P4 by (eapply PL; [|exact E2|]; [cbn; tauto|unfold special; intuition discriminate]).
  assert (plain v5 = true) as P5 by (eapply PL; [|eassumption|]; [cbn; tauto|unfold special; intuition discriminate]).
  assert (plain v6 = true) as P6 by (eapply PL; [|eassumption|]; [cbn; tauto|unfold special; intuition discriminate]).
  assert (plain v7 = true) as P7 by (eapply PL; [|eassumption|]; [cbn; tauto|unfold special; intuition discriminate]).
  assert (plain v8 = true) as P8 by (eapply PL; [|eassumption|]; [cbn; tauto|unfold special; intuition discriminate]).
  assert (plain v12 = true) as P12 by (eapply PL; [|eassumption|]; [cbn; tauto|unfold special; intuition discriminate]).
  assert (exists l, v10 = PyTuple l /\ Forall (built_by make_bound) l) as (lb & -> & Fb).
  { match goal with X : ent kw ("bounds", _) = Some v10 |- _ => unfold ent in X; cbn [fst snd] in X; destruct (dget "bounds" kw) as [w|] eqn:Ew; [injection X as <-; now apply D2|injection X as <-; exists []; now split] end. }
  assert (exists l, v11 = PyTuple l /\ Forall (built_by make_scale) l) as (ls & -> & Fs).
  { match goal with X : ent kw ("scales", _) = Some v11 |- _ => unfold ent in X; cbn [fst snd] in X; destruct (dget "scales" kw) as [w|] eqn:Ew; [injection X as <-; now apply D3|injection X as <-; exists []; now split] end. }
  assert (exists l, v9 = PyTuple l /\ Forall (built_by make_bc) l) as (lc & -> & Fc).
  { match goal with X : ent kw ("boundary_conditions", _) = Some v9 |- _ => unfold ent in X; cbn [fst snd] in X; destruct (dget "boundary_conditions" kw) as [w|] eqn:Ew; [injection X as <-; now apply D4|injection X as <-; exists []; now split] end. }
  destruct (deser_objects make_bound lb bound_again Fb) as [B1 B2]. destruct (deser_objects make_scale ls scale_again Fs) as [S1 S2]. destruct (deser_objects make_bc lc bc_again Fc) as [C1 C2].
  set (v3' := match v3 with PyStr s => PyTuple [PyStr s] | _ => v3 end) in *.
  assert (forall bs ss cs lg bs' ss' cs', deserialize make_bound bs = Ok bs' -> deserialize make_scale ss = Ok ss' -> deserialize make_bc cs = Ok cs' ->
    sim_post [("num_intervals", v1); ("interval_points", v2); ("transcription", v3); ("is_cyclic", v4); ("non_cyclic_vars", v5); ("is_condensed", v6); ("backend", v7); ("hessian_approximation", v8);
       ("boundary_conditions", cs); ("bounds", bs); ("scales", ss); ("con_output_names", v12); ("logging_config", lg)] =
    Ok [("num_intervals", v1); ("interval_points", v2); ("transcription", v3'); ("is_cyclic", v4); ("non_cyclic_vars", v5); ("is_condensed", v6); ("backend", v7); ("hessian_approximation", v8);
       ("boundary_conditions", cs'); ("bounds", bs'); ("scales", ss'); ("con_output_names", v12); ("logging_config", lg)]) as SP.
  { intros bs ss cs lg bs' ss' cs' A1 A2 A3. unfold sim_post, on_field. cbn -[deserialize]. rewrite A1. cbn -[deserialize]. rewrite A2. cbn -[deserialize]. rewrite A3. reflexivity. }
  rewrite (SP _ _ _ v13 _ _ _ B1 S1 C1) in H. cbn [fmap] in H. injection H as <-.
  assert (plain v3' = true) as P3' by (unfold v3'; destruct v3; assumption || reflexivity).
  assert (match v3' with PyStr s => PyTuple [PyStr s] | _ => v3' end = v3') as N3 by (unfold v3'; destruct v3; reflexivity).
  unfold to_dict. cbn [asdict map fst snd]. rewrite !asdict_plain by assumption.
  unfold from_dict, call_kw, make_sim. rewrite fields_of_self; [|repeat constructor; simpl; intuition discriminate|reflexivity]. cbn [bind].
  clear SP. unfold sim_post, on_field. cbn -[deserialize asdict]. rewrite B2. cbn -[deserialize asdict]. rewrite S2. cbn -[deserialize asdict]. rewrite C2. cbn -[deserialize asdict]. rewrite N3.
  eexists. split; [reflexivity|]. split; [|split].
  - intros n Hn. unfold attr. cbn [dget]. repeat match goal with |- context [String.eqb n ?s] => destruct (String.eqb_spec n s); [try reflexivity; contradiction|] end. reflexivity.
  - reflexivity.
  - cbn [asdict map fst snd]. rewrite !asdict_plain by assumption. now rewrite asdict_idem.
Qed.
Print Assumptions C38_roundtrip.

Lemma leb_list : forall a b, List.length a = List.length b -> (all_le a b = true <-> forall i x y, nth_error a i = Some x -> nth_error b i = Some y -> eleb x y = true).
Proof.
  unfold all_le. induction a as [|x a IH]; intros [|y b] L; try discriminate.
  - split; [intros _ [|i] ? ?; discriminate|reflexivity].
  - cbn [combine forallb fst snd]. injection L as L. rewrite andb_true_iff, IH by assumption. split.
    + intros [E F] [|i] u v Hu Hv; cbn in Hu, Hv; [injection Hu as <-; injection Hv as <-; exact E|eauto].
    + intro H. split; [apply (H 0%nat); reflexivity|]. intros i u v Hu Hv. exact (H (S i) u v Hu Hv).
Qed.
(** exactly the documented bound values are accepted, by position or through a dictionary *)
Theorem C38_bounds_validated : forall g n v, (exists o, make_bound [("group", g); ("name", n); ("values", v)] = Ok o) <-> valid_bounds v.
Proof.
  intros g n v. assert ((exists o, make_bound [("group", g); ("name", n); ("values", v)] = Ok o) <-> check_values v = Ok tt) as ->.
  { unfold make_bound. cbn -[check_values]. destruct (check_values v) as [[]|] eqn:E; cbn [bind]; (split; [intros [o H]; congruence|intro H; try discriminate; eauto]). }
  unfold valid_bounds. split.
  - intro H. unfold check_values in H. destruct v as [| | | |[|l [|u [|]]]|[|l [|u [|]]]| |]; try discriminate.
    + destruct l as [|a|a|dl a| | | |], u as [|b|b|du b| | | |]; try discriminate.
      * destruct (String.leb a b) eqn:E; [|discriminate]. right. left. exists a, b. auto.
      * destruct (eleb a b) eqn:E; [|discriminate]. left. exists a, b. auto.
      * destruct (Nat.eqb_spec dl 1); [|discriminate]. destruct (Nat.eqb_spec du 1); [|discriminate]. subst. cbn [andb negb] in H. destruct (Nat.eqb_spec (List.length a) (List.length b)); [|discriminate]. cbn [negb] in H. destruct (all_le a b) eqn:E; [|discriminate]. right. right. exists a, b. split; [auto|]. split; [assumption|]. now apply leb_list.
    + destruct l as [|a|a|dl a| | | |], u as [|b|b|du b| | | |]; try discriminate.
      * destruct (String.leb a b) eqn:E; [|discriminate]. right. left. exists a, b. auto.
      * destruct (eleb a b) eqn:E; [|discriminate]. left. exists a, b. auto.
      * destruct (Nat.eqb_spec dl 1); [|discriminate]. destruct (Nat.eqb_spec du 1); [|discriminate]. subst. cbn [andb negb] in H. destruct (Nat.eqb_spec (List.length a) (List.length b)); [|discriminate]. cbn [negb] in H. destruct (all_le a b) eqn:E; [|discriminate]. right. right. exists a, b. split; [auto|]. split; [assumption|]. now apply leb_list.
  - intros [(a & b & [-> | ->] & E)|[(a & b & [-> | ->] & E)|(a & b & [-> | ->] & L & E)]]; cbn [check_values]; try (now rewrite E); cbn [Nat.eqb andb negb]; rewrite L, Nat.eqb_refl; cbn [negb]; rewrite (proj2 (leb_list a b L) E); reflexivity.
Qed.
Print Assumptions C38_bounds_validated.

Lemma set_fields : forall kw f, fields_of sim_spec kw = Ok f -> forall n v, dget n kw = Some v -> dget n f = Some v.
Proof.
  intros kw f H n v E. pose proof (fields_of_ok _ _ _ H) as (K0 & K & F). assert (In n (map fst sim_spec)) as Hn by (apply K0; apply dget_some_iff; eauto). clear H K0. revert F Hn K. generalize sim_spec as spec. intros spec F. induction F as [|[m o] [k w] spec f He F IH]; intros Hn K; [contradiction|].
  unfold keys in K. cbn [map fst] in K. injection K as -> K. unfold ent in He. cbn [fst snd] in He. cbn [dget]. destruct (String.eqb_spec n m) as [->|Hne]; [now rewrite E in He|]. apply IH; [|assumption]. destruct Hn as [Hn|Hn]; [|assumption]. cbn in Hn. congruence.
Qed.
(** a configuration given with dictionaries of bounds is built exactly when every one of them is a valid bound configuration (and everything else is
    fine); then [bounds] holds the corresponding objects, in order.  With the first invalid dictionary the constructor fails with the exception of
    that bound. *)
Theorem C38_bounds_from_dicts : forall kw ds, dget "bounds" kw = Some (PyTuple (map PyDict ds)) ->
  (forall c, make_sim kw = Ok c -> exists os, attr "bounds" c = Ok (PyTuple os) /\ Forall2 (fun d o => make_bound d = Ok o) ds os) /\
  (forall ds1 d ds2 e, ds = ds1 ++ d :: ds2 -> Forall (fun d => exists o, make_bound d = Ok o) ds1 -> make_bound d = Raise e -> (exists f, fields_of sim_spec kw = Ok f) -> make_sim kw = Raise e).
Proof.
  intros kw ds HB. split.
  - intros c H. unfold make_sim in H. destruct (fields_of sim_spec kw) as [f|] eqn:Ef; [|discriminate]. cbn [bind] in H. pose proof (set_fields _ _ Ef _ _ HB) as Hb. pose proof (fields_of_ok _ _ _ Ef) as (_ & K & _).
    destruct (sim_shape f K) as (v1 & v2 & v3 & v4 & v5 & v6 & v7 & v8 & v9 & v10 & v11 & v12 & v13 & ->). cbn in Hb. injection Hb as ->.
    unfold sim_post, on_field in H. cbn -[deserialize] in H. destruct (deserialize make_bound (PyTuple (map PyDict ds))) as [bs|] eqn:Eb; [|discriminate]. cbn -[deserialize] in H. destruct (deserialize make_scale v11) as [ss|]; [|discriminate]. cbn -[deserialize] in H. destruct (deserialize make_bc v9) as [cs|]; [|discriminate]. cbn -[deserialize] in H. injection H as <-. cbn [attr dget]. 
    destruct ds as [|d ds]; [cbn in Eb; injection Eb as <-; exists []; split; [reflexivity|constructor]|]. cbn [map deserialize is_dict] in Eb. destruct (mapM _ _) as [os|] eqn:Em; [|discriminate]. cbn [fmap] in Eb. injection Eb as <-. exists os. split; [reflexivity|]. clear - Em. change (PyDict d :: map PyDict ds) with (map PyDict (d :: ds)) in Em. revert os Em. generalize (d :: ds) as l. induction l as [|x l IH]; intros os Em; cbn [map mapM] in Em.
    + injection Em as <-. constructor.
    + cbn [call_kw] in Em. destruct (make_bound x) as [o|] eqn:Ex; [|discriminate]. destruct (mapM _ _) as [r|] eqn:Er; [|discriminate]. injection Em as <-. constructor; auto.
  - intros ds1 d ds2 e -> F1 Hd [f Ef]. unfold make_sim. rewrite Ef. cbn [bind]. pose proof (set_fields _ _ Ef _ _ HB) as Hb. pose proof (fields_of_ok _ _ _ Ef) as (_ & K & _).
    destruct (sim_shape f K) as (v1 & v2 & v3 & v4 & v5 & v6 & v7 & v8 & v9 & v10 & v11 & v12 & v13 & ->). cbn in Hb. injection Hb as ->.
    unfold sim_post, on_field. cbn -[deserialize].
    assert (deserialize make_bound (PyTuple (map PyDict (ds1 ++ d :: ds2))) = Raise e) as ->; [|reflexivity].
    assert (mapM (call_kw make_bound) (map PyDict (ds1 ++ d :: ds2)) = Raise e) as M.
    { clear - F1 Hd. induction F1 as [|x l [o Hx] F1 IH]; cbn [app map mapM call_kw]; [now rewrite Hd|]. rewrite Hx, IH. reflexivity. }
    destruct (ds1 ++ d :: ds2) as [|x l] eqn:E; [now destruct ds1|]. cbn [map] in *. unfold deserialize. cbn [is_dict]. rewrite M. reflexivity.
Qed.
Print Assumptions C38_bounds_from_dicts.

Lemma fields_iff : forall spec kw f, fields_of spec kw = Ok f <-> (forall k, In k (keys kw) -> In k (map fst spec)) /\ Forall2 (fun s e => fst e = fst s /\ ent kw s = Some (snd e)) spec f.
Proof.
  intros spec kw f. split.
  - intro H. destruct (fields_of_ok _ _ _ H) as (K & E & F). split; [exact K|]. clear H K. revert E. induction F as [|s [k v] spec f Hs F IH]; intro E; [constructor|]. unfold keys in E. cbn [map fst] in E. injection E as -> E. constructor; [split; [reflexivity|exact Hs]|now apply IH].
  - intros [K F]. unfold fields_of. assert (forallb (fun k => existsb (String.eqb k) (map fst spec)) (keys kw) = true) as ->.
    { apply forallb_forall. intros k Hk. apply existsb_exists. exists k. split; [now apply K|apply String.eqb_refl]. }
    clear K. induction F as [|[n o] [k v] spec f [Hk Hs] F IH]; [reflexivity|]. cbn [mapM fst snd] in *. subst k. unfold ent in Hs. cbn [fst snd] in Hs. destruct (dget n kw) as [w|]; [injection Hs as ->; now rewrite IH|]. subst o. now rewrite IH.
Qed.
Ltac fields := match goal with X : Forall2 _ [] _ |- _ => inversion X; subst; clear X | X : Forall2 _ (_ :: _) _ |- _ => let A := fresh "A" in let B := fresh "B" in inversion X as [|? [? ?] ? ? [A B] ?]; subst; clear X; unfold ent in B; cbn [fst snd] in A, B end.
(** A bound, a scale, a boundary condition: all fields have to be given, nothing else may be given, and the object holds exactly them. *)
Theorem C38_objects : forall kw o,
  (make_bound kw = Ok o <-> exists g n v, o = PyObj "BoundConfig" [("group", g); ("name", n); ("values", v)] /\ dget "group" kw = Some g /\ dget "name" kw = Some n /\ dget "values" kw = Some v /\ valid_bounds v /\ forall k, In k (keys kw) -> In k ["group"; "name"; "values"]) /\
  (make_scale kw = Ok o <-> exists g n v, o = PyObj "ScaleConfig" [("group", g); ("name", n); ("value", v)] /\ dget "group" kw = Some g /\ dget "name" kw = Some n /\ dget "value" kw = Some v /\ forall k, In k (keys kw) -> In k ["group"; "name"; "value"]) /\
  (make_bc kw = Ok o <-> exists s g n v, o = PyObj "BoundaryConditionConfig" [("stage", s); ("group", g); ("name", n); ("value", v)] /\ dget "stage" kw = Some s /\ dget "group" kw = Some g /\ dget "name" kw = Some n /\ dget "value" kw = Some v /\ forall k, In k (keys kw) -> In k ["stage"; "group"; "name"; "value"]) /\
  (make_logging kw = Ok o <-> exists s r l, o = PyObj "LoggingConfig" [("sim_name", s); ("results_dir", r); ("log_every_nth_iter", l)] /\
     s = match dget "sim_name" kw with Some x => x | None => PyStr "simulation" end /\ r = match dget "results_dir" kw with Some x => x | None => PyStr "results" end /\ l = match dget "log_every_nth_iter" kw with Some x => x | None => PyNum (Fin 0) end /\ forall k, In k (keys kw) -> In k ["sim_name"; "results_dir"; "log_every_nth_iter"]).
Proof.
  intros kw o. split; [|split; [|split]].
  - split.
    + intro H. unfold make_bound in H. destruct (fields_of bound_spec kw) as [f|] eqn:Ef; [|discriminate]. apply fields_iff in Ef. destruct Ef as [K F]. unfold bound_spec in F. repeat fields. cbn [bind dget String.eqb Ascii.eqb Bool.eqb] in H.
      destruct (dget "group" kw) as [g|]; [|discriminate]. destruct (dget "name" kw) as [n|]; [|discriminate]. destruct (dget "values" kw) as [v|]; [|discriminate].
      injection B as ->. injection B0 as ->. injection B1 as ->. destruct (check_values p1) as [[]|] eqn:Ec; [|discriminate]. cbn [bind] in H. injection H as <-. do 3 eexists. repeat (split; [reflexivity|]). split; [|exact K].
      apply (C38_bounds_validated p p0 p1). unfold make_bound. cbn -[check_values]. rewrite Ec. cbn [bind]. eauto.
    + intros (g & n & v & -> & Hg & Hn & Hv & V & K). unfold make_bound. replace (fields_of bound_spec kw) with (Ok [("group", g); ("name", n); ("values", v)]).
      2:{ symmetry. apply fields_iff. split; [exact K|]. unfold bound_spec, ent. repeat constructor; cbn [fst snd]; [now rewrite Hg|now rewrite Hn|now rewrite Hv]. }
      apply (C38_bounds_validated g n v) in V. destruct V as [o V]. unfold make_bound in V. cbn -[check_values] in V. cbn -[check_values]. destruct (check_values v); [reflexivity|discriminate].
  - unfold make_scale. split.
    + intro H. destruct (fields_of scale_spec kw) as [f|] eqn:Ef; [|discriminate]. apply fields_iff in Ef. destruct Ef as [K F]. unfold scale_spec in F. repeat fields. cbn [fmap] in H. injection H as <-.
      destruct (dget "group" kw) as [g|]; [|discriminate]. destruct (dget "name" kw) as [n|]; [|discriminate]. destruct (dget "value" kw) as [v|]; [|discriminate].
      injection B as ->. injection B0 as ->. injection B1 as ->. do 3 eexists. repeat (split; [reflexivity|]). exact K.
    + intros (g & n & v & -> & Hg & Hn & Hv & K). replace (fields_of scale_spec kw) with (Ok [("group", g); ("name", n); ("value", v)]); [reflexivity|]. symmetry. apply fields_iff. split; [exact K|]. unfold scale_spec, ent. repeat constructor; cbn [fst snd]; [now rewrite Hg|now rewrite Hn|now rewrite Hv].
  - unfold make_bc. split.
    + intro H. destruct (fields_of bc_spec kw) as [f|] eqn:Ef; [|discriminate]. apply fields_iff in Ef. destruct Ef as [K F]. unfold bc_spec in F. repeat fields. cbn [fmap] in H. injection H as <-.
      destruct (dget "stage" kw) as [s|]; [|discriminate]. destruct (dget "group" kw) as [g|]; [|discriminate]. destruct (dget "name" kw) as [n|]; [|discriminate]. destruct (dget "value" kw) as [v|]; [|discriminate].
      injection B as ->. injection B0 as ->. injection B1 as ->. injection B2 as ->. do 4 eexists. repeat (split; [reflexivity|]). exact K.
    + intros (s & g & n & v & -> & Hs & Hg & Hn & Hv & K). replace (fields_of bc_spec kw) with (Ok [("stage", s); ("group", g); ("name", n); ("value", v)]); [reflexivity|]. symmetry. apply fields_iff. split; [exact K|]. unfold bc_spec, ent. repeat constructor; cbn [fst snd]; [now rewrite Hs|now rewrite Hg|now rewrite Hn|now rewrite Hv].
  - unfold make_logging. split.
    + intro H. destruct (fields_of logging_spec kw) as [f|] eqn:Ef; [|discriminate]. apply fields_iff in Ef. destruct Ef as [K F]. unfold logging_spec in F. repeat fields. cbn [fmap] in H. injection H as <-. do 3 eexists. split; [reflexivity|].
      destruct (dget "sim_name" kw), (dget "results_dir" kw), (dget "log_every_nth_iter" kw); (split; [congruence|]); (split; [congruence|]); (split; [congruence|exact K]).
    + intros (s & r & l & -> & Hs & Hr & Hl & K). replace (fields_of logging_spec kw) with (Ok [("sim_name", s); ("results_dir", r); ("log_every_nth_iter", l)]); [reflexivity|]. symmetry. apply fields_iff. split; [exact K|]. unfold logging_spec, ent. subst. repeat constructor; cbn [fst snd]; [now destruct (dget "sim_name" kw)|now destruct (dget "results_dir" kw)|now destruct (dget "log_every_nth_iter" kw)].
Qed.
Print Assumptions C38_objects.
(** the defaults of the simulation configuration *)
Definition sim_defaults : list (string * py) :=
  [("num_intervals", PyNum (Fin 99)); ("interval_points", PyNone); ("transcription", PyTuple [PyStr "Trapezoidal"]); ("is_cyclic", PyNum (Fin 0)); ("non_cyclic_vars", PyList []); ("is_condensed", PyNum (Fin 0));
   ("backend", PyStr "jax"); ("hessian_approximation", PyStr "exact"); ("boundary_conditions", PyTuple []); ("bounds", PyTuple []); ("scales", PyTuple []); ("con_output_names", PyTuple []); ("logging_config", PyNone)].
(** Arguments that are not given have these defaults; arguments that are not one of these names are rejected; the plain arguments are kept as given (a single transcription name becomes a tuple). *)
Theorem C38_defaults : forall kw, (forall c, make_sim kw = Ok c -> (forall n d, In (n, d) sim_defaults -> dget n kw = None -> attr n c = Ok d) /\
    (forall n v, dget n kw = Some v -> In n ["num_intervals"; "interval_points"; "is_cyclic"; "non_cyclic_vars"; "is_condensed"; "backend"; "hessian_approximation"; "con_output_names"; "logging_config"] -> attr n c = Ok v) /\
    (forall s, dget "transcription" kw = Some (PyStr s) -> attr "transcription" c = Ok (PyTuple [PyStr s]))) /\
  (forall n, In n (keys kw) -> ~ In n (map fst sim_defaults) -> make_sim kw = Raise TypeError).
Proof.
  intro kw. split.
  - intros c H. unfold make_sim in H. destruct (fields_of sim_spec kw) as [f|] eqn:Ef; [|discriminate]. cbn [bind] in H. apply fields_iff in Ef. destruct Ef as [_ F]. unfold sim_spec in F. repeat fields.
    unfold sim_post, on_field in H. cbn -[deserialize] in H.
    match type of H with context [deserialize make_bound ?x] => destruct (deserialize make_bound x) as [bs|] eqn:Eb; [|discriminate] end. cbn -[deserialize] in H.
    match type of H with context [deserialize make_scale ?x] => destruct (deserialize make_scale x) as [ss|] eqn:Es; [|discriminate] end. cbn -[deserialize] in H.
    match type of H with context [deserialize make_bc ?x] => destruct (deserialize make_bc x) as [cs|] eqn:Ec; [|discriminate] end. cbn -[deserialize] in H. injection H as <-.
    split; [|split].
    + intros n d Hin Hn. cbn in Hin. repeat (destruct Hin as [Hin|Hin]; [injection Hin as <- <-; rewrite Hn in *; cbn [attr dget String.eqb Ascii.eqb Bool.eqb]; try congruence|]); [| | | |contradiction].
      * match goal with X : Some (PyStr "Trapezoidal") = Some ?p |- _ => injection X as <- end. reflexivity.
      * match goal with X : Some (PyTuple []) = Some ?p, Y : deserialize make_bc ?p = _ |- _ => injection X as <-; cbn in Y; congruence end.
      * match goal with X : Some (PyTuple []) = Some ?p, Y : deserialize make_bound ?p = _ |- _ => injection X as <-; cbn in Y; congruence end.
      * match goal with X : Some (PyTuple []) = Some ?p, Y : deserialize make_scale ?p = _ |- _ => injection X as <-; cbn in Y; congruence end.
    + intros n v Hv Hin. cbn in Hin. repeat (destruct Hin as [Hin|Hin]; [subst n; rewrite Hv in *; cbn [attr dget String.eqb Ascii.eqb Bool.eqb]; congruence|]). contradiction.
    + intros s Hs. rewrite Hs in *. match goal with X : Some (PyStr s) = Some ?p |- _ => injection X as <- end. reflexivity.
  - intros n Hin Hn. unfold make_sim. destruct (fields_of sim_spec kw) as [f|e] eqn:Ef; [apply fields_iff in Ef; destruct Ef as [K _]; exfalso; apply Hn; exact (K n Hin)|].
    unfold fields_of in Ef. destruct (forallb _ _) eqn:Fb; [exfalso; apply Hn; rewrite forallb_forall in Fb; specialize (Fb n Hin); apply existsb_exists in Fb; destruct Fb as (y & Hy & Ey); apply String.eqb_eq in Ey; subst; exact Hy|]. injection Ef as <-. reflexivity.
Qed.
Print Assumptions C38_defaults.

(** *** a concrete configuration *)
Definition ex_bound : list (string * py) := [("group", PyStr "states"); ("name", PyStr "v"); ("values", PyTuple [PyNum (Fin 0); PyNum PosInf])].
Definition ex_bound_obj : py := PyObj "BoundConfig" ex_bound.
Definition ex_log : list (string * py) := [("sim_name", PyStr "run"); ("results_dir", PyStr "results"); ("log_every_nth_iter", PyNum (Fin 10))].
Definition ex_kw : list (string * py) := [("bounds", PyTuple [ex_bound_obj]); ("transcription", PyStr "LGR"); ("scales", PyTuple [PyObj "ScaleConfig" [("group", PyStr "states"); ("name", PyStr "v"); ("value", PyNum (Fin 50))]]); ("logging_config", PyObj "LoggingConfig" ex_log)].
Lemma ex_bound_ok : make_bound ex_bound = Ok ex_bound_obj.
Proof. reflexivity. Qed.
Example C38_nonvacuous : documented ex_kw /\ exists c, make_sim ex_kw = Ok c /\ attr "transcription" c = Ok (PyTuple [PyStr "LGR"]) /\ attr "bounds" c = Ok (PyTuple [ex_bound_obj]).
Proof.
  split.
  - split.
    { intros n v H Hn. unfold ex_kw in H. cbn [dget] in H. unfold special in Hn.
      destruct (String.eqb_spec n "bounds"); [exfalso; auto|]. destruct (String.eqb_spec n "transcription"); [injection H as <-; reflexivity|]. destruct (String.eqb_spec n "scales"); [exfalso; auto|]. destruct (String.eqb_spec n "logging_config"); [exfalso; auto|discriminate]. }
    split. { intros v H. cbn in H. injection H as <-. eexists. split; [reflexivity|]. repeat constructor. exists ex_bound. split; reflexivity. }
    split. { intros v H. cbn in H. injection H as <-. eexists. split; [reflexivity|]. repeat constructor. eexists. split; [|shelve]. instantiate (1 := [("group", PyStr "states"); ("name", PyStr "v"); ("value", PyNum (Fin 50))]). reflexivity. Unshelve. reflexivity. }
    split. { intros v H. discriminate. }
    intros v H. cbn in H. injection H as <-. right. exists ex_log. split; reflexivity.
  - eexists. split; [reflexivity|]. split; reflexivity.
Qed.

(** *** findings *)
(** the logging configuration of the copy is a dictionary: reading [log_every_nth_iter] from it fails although it works on the original *)
Theorem C38_logging_refuted : exists c c' l l', make_sim ex_kw = Ok c /\ from_dict (to_dict c) = Ok c' /\ attr "logging_config" c = Ok l /\ attr "logging_config" c' = Ok l' /\
  attr "log_every_nth_iter" l = Ok (PyNum (Fin 10)) /\ attr "log_every_nth_iter" l' = Raise AttributeError.
Proof. do 4 eexists. split; [reflexivity|]. split; [reflexivity|]. split; [reflexivity|]. split; [reflexivity|]. split; reflexivity. Qed.
Print Assumptions C38_logging_refuted.
(** only the first element decides whether [bounds] is converted: a dictionary after an object is kept unconverted and unvalidated (here lower > upper),
    and the copy then fails *)
Theorem C38_mixed_refuted : exists c bad, make_bound bad = Raise AssertionError /\
  make_sim [("bounds", PyTuple [ex_bound_obj; PyDict bad])] = Ok c /\ attr "bounds" c = Ok (PyTuple [ex_bound_obj; PyDict bad]) /\ from_dict (to_dict c) = Raise AssertionError.
Proof.
  assert (eleb (Fin 1) (Fin 0) = false) as E by (cbn; destruct (Rle_dec 1 0); [lra|reflexivity]).
  eexists. exists [("group", PyStr "states"); ("name", PyStr "v"); ("values", PyTuple [PyNum (Fin 1); PyNum (Fin 0)])]. split; [unfold make_bound; cbn -[eleb]; rewrite E; reflexivity|].
  split; [reflexivity|]. split; [reflexivity|]. cbn -[eleb]. rewrite E. reflexivity.
Qed.
Print Assumptions C38_mixed_refuted.
(** a list of bound objects comes back as a tuple, so the copy is not equal to the original *)
Theorem C38_list_refuted : exists c c', make_sim [("bounds", PyList [ex_bound_obj])] = Ok c /\ from_dict (to_dict c) = Ok c' /\ attr "bounds" c = Ok (PyList [ex_bound_obj]) /\ attr "bounds" c' = Ok (PyTuple [ex_bound_obj]).
Proof. do 2 eexists. split; [reflexivity|]. split; [reflexivity|]. split; reflexivity. Qed.
Print Assumptions C38_list_refuted.
