(** C58, continued: the parameters around a build and an export; the schedules of ArtProps.v are not empty words. *)
From Verif Require Import Base TreeModel TreeSpec TreeProps CompModel CompSpec CompProofs CompProps ArtModel ArtSpec ArtProofs ArtProofs2 ArtProps.

(** the parameters of the model [m'] are those of the tree [p], at every place of [m] *)
Definition params_of {V} (m m' : model V) (p : ptree V) : Prop :=
  same_structure m m' /\ forall names s, mwalk names m' = Ok s -> exists q, walk names p = Ok q /\ mparams s = tdata q.

Lemma traced_spec : forall V (m : model V) syms forward, wf_model m -> covers m syms ->
  exists m1, traced m syms forward = (m1, forward m1) /\ params_of m m1 syms.
Proof.
  intros V m syms forward W C. unfold traced. destruct (set_rec m syms) as [m1 e] eqn:E. destruct (C31_set V m m1 syms e W E) as (H1 & H2 & H3 & H4).
  apply H1 in C. subst e. exists m1. split; [reflexivity|]. split; [exact H3|]. now apply H4.
Qed.

(** preparing the CasADi constraints: success gives back the parameters, and every failure (in the model's own forward, or in the build) leaves
    the symbols of the tracing in the model *)
Theorem C58_params : forall V (m : model V) syms forward build, wf_model m -> uniq_p (get_rec m) = true -> covers m syms ->
  forall m' r, make_casadi m syms forward build = (m', r) ->
  (exists m1 src fns, params_of m m1 syms /\ forward m1 = Ok src /\ build src = Ok fns /\ r = Ok fns /\ m' = m) \/
  (exists e, r = Raise e /\ params_of m m' syms /\ (forward m' = Raise e \/ exists src, forward m' = Ok src /\ build src = Raise e)).
Proof.
  intros V m syms forward build W U C m' r H. unfold make_casadi in H. rewrite (C01_dict_roundtrip_param V (get_rec m) U) in H.
  destruct (traced_spec V m syms forward W C) as (m1 & E1 & P1). rewrite E1 in H. destruct (forward m1) as [src|e] eqn:F.
  - destruct (build src) as [fns|e] eqn:B.
    + rewrite (set_restore m m1 W (proj1 P1)) in H. inversion H; subst. left. exists m1, src, fns. auto.
    + inversion H; subst. right. exists e. split; [reflexivity|]. split; [exact P1|]. right. now exists src.
  - inversion H; subst. right. exists e. auto.
Qed.
Print Assumptions C58_params.

(** the same for [export_c_code] *)
Theorem C58_export : forall V (m : model V) syms forward generate, wf_model m -> covers m syms ->
  forall m' r, export_c_code m syms forward generate = (m', r) ->
  (exists m1 src c, params_of m m1 syms /\ forward m1 = Ok src /\ generate src = Ok c /\ r = Ok c /\ m' = m) \/
  (exists e, r = Raise e /\ params_of m m' syms /\ (forward m' = Raise e \/ exists src, forward m' = Ok src /\ generate src = Raise e)).
Proof.
  intros V m syms forward generate W C m' r H. unfold export_c_code in H. destruct (traced_spec V m syms forward W C) as (m1 & E1 & P1). rewrite E1 in H.
  destruct (forward m1) as [src|e] eqn:F.
  - destruct (generate src) as [fns|e] eqn:B.
    + cbn zeta in H. rewrite (set_restore m m1 W (proj1 P1)) in H. inversion H; subst. left. exists m1, src, fns. auto.
    + inversion H; subst. right. exists e. split; [reflexivity|]. split; [exact P1|]. right. now exists src.
  - inversion H; subst. right. exists e. auto.
Qed.
Print Assumptions C58_export.

(** FINDING: after a failed build or export the model computes with symbols: its parameters are not the ones it had *)
Definition wheel_class : mclass string := {| cname := "Wheel"; csubs := []; cdefaults := [("r", "0.33")] |}.
Definition wheel : model string := M wheel_class [("r", "0.33")] [].
Theorem C58_failed_build_refuted : exists (m : model string) syms forward build m', wf_model m /\ uniq_p (get_rec m) = true /\ covers m syms /\
  make_casadi m syms forward build = (m', Raise RuntimeError) /\ get_rec m' <> get_rec m /\ get_rec m' = syms.
Proof.
  exists wheel, (Node [("r", "params[0]")] []), (fun _ => Ok []), (fun _ => Raise RuntimeError), (M wheel_class [("r", "params[0]")] []).
  split; [apply WF; [constructor|intros ? ? []]|]. split; [reflexivity|]. split.
  - intros [|n names] s H; [exists (Node [("r", "params[0]")] []); reflexivity|]. discriminate H.
  - split; [reflexivity|]. split; [discriminate|reflexivity].
Qed.
Print Assumptions C58_failed_build_refuted.

(** ** a schedule that meets the hypotheses: two models, overlapping builds that respect the lock, a kill and a restart *)
Definition insideb (p : pc) : bool := match p with PWrite _ | PHash _ | PCheck _ | PGcc _ => true | _ => false end.
Definition startb (p : pc) : bool := match p with PStart => true | _ => false end.
Fixpoint others_out (i : nat) (l : list (source * pc)) (j : nat) : bool :=
  match l with [] => true | (_, p) :: r => (Nat.eqb i j || negb (insideb p)) && others_out i r (S j) end.
Fixpoint lockedb (md5 : source -> string) (compiles : source -> bool) (defines : source -> string -> bool) (s : sys) (l : list event) : bool :=
  match l with
  | [] => true
  | e :: r => match e with
              | Run i => match nth_error (builds s) i with Some (_, PStart) => others_out i (builds s) 0 | _ => true end
              | _ => true
              end && lockedb md5 compiles defines (sstep md5 compiles defines s e) r
  end.
Lemma others_out_ok : forall l i k, others_out i l k = true -> forall j src p, nth_error l j = Some (src, p) -> k + j <> i -> ~ inside p.
Proof.
  induction l as [|[s0 p0] l IH]; intros i k H j src p Hj N; [destruct j; discriminate|]. cbn in H. apply andb_prop in H. destruct H as [H1 H2].
  destruct j as [|j]; cbn in Hj.
  - inversion Hj; subst. apply orb_prop in H1. destruct H1 as [H1|H1]; [apply Nat.eqb_eq in H1; lia|]. destruct p; simpl in *; try discriminate; auto.
  - apply (IH i (S k) H2 j src p Hj). lia.
Qed.
Lemma lockedb_ok : forall md5 compiles defines l s, lockedb md5 compiles defines s l = true -> locked md5 compiles defines s l.
Proof.
  intros md5 compiles defines l; induction l as [|e l IH]; intros s H l1 i l2 src E Hi j src' p Hj N; [destruct l1; discriminate|].
  cbn in H. apply andb_prop in H. destruct H as [H1 H2]. destruct l1 as [|e1 l1]; cbn in E; inversion E; subst.
  - cbn in Hi, Hj. rewrite Hi in H1. apply (others_out_ok _ _ _ H1 j src' p Hj). simpl. congruence.
  - exact (IH _ H2 l1 i l2 src eq_refl Hi j src' p Hj N).
Qed.

Definition md5' (c : source) : string := string_of_list_ascii c.
Definition yes (_ : source) : bool := true.
Definition def' (c : source) (_ : string) : bool := match c with [] => false | _ => true end.
Definition ca : source := ["a"%char; "b"%char].
Definition cb : source := ["z"%char].
(** three builds: two of the first model, one of the second *)
Definition s3 : sys := {| builds := [(ca, PStart); (cb, PStart); (ca, PStart)]; files := no_libs [] |}.
(** build 0 up to the creation of its library, then build 1 starts while 0 links; 0 is killed only after it has finished; build 2 last *)
Definition sched : list event :=
  repeat (Run 0) 8 ++ [Run 1; Run 1; Run 0; Run 1] ++ repeat (Run 0) 7 ++ repeat (Run 1) 12 ++ [Kill 0] ++ repeat (Run 2) 12.
Example C58_nonvacuous :
  quiet s3 /\ honest md5' (files s3) /\ no_collision md5' s3 /\ locked md5' yes def' s3 sched /\ complete yes def' ca /\ complete yes def' cb /\
  map snd (builds (srun md5' yes def' s3 sched)) = [PDone (Ok (functions_of ca)); PDone (Ok (functions_of cb)); PDone (Ok (functions_of ca))].
Proof.
  split; [|split; [|split; [|split; [|split; [|split]]]]].
  - intros [|[|[|i]]] src p H; cbn in H; inversion H; auto. destruct i; discriminate.
  - intros h c H. discriminate.
  - intros a b Ha Hb. assert (forall x, present s3 x -> x = ca \/ x = cb) as G.
    { intros x [[p Hp]|[h Hh]]; [|discriminate]. cbn in Hp. destruct Hp as [E|[E|[E|[]]]]; inversion E; auto. }
    destruct (G a Ha) as [-> | ->], (G b Hb) as [-> | ->]; intro E; try reflexivity; discriminate E.
  - apply lockedb_ok. vm_compute. reflexivity.
  - repeat split.
  - repeat split.
  - vm_compute. reflexivity.
Qed.
(** the hypotheses of the findings are met by the same models *)
Example C58_race_nonvacuous : exists l, nth_error (builds (srun md5' yes def' (pair_of ca cb (no_libs [])) l)) 0 = Some (ca, PDone (Ok (functions_of cb))) /\ ca <> cb.
Proof. destruct (C58_race_refuted md5' yes def' ca cb [] ltac:(repeat split)) as [l H]. exists l. split; [exact H|discriminate]. Qed.
