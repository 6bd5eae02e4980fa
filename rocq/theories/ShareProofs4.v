(** Lemmas for C62: histories, the exact effect of set_param, copies, the example. *)
From Verif Require Import Base TreeModel TreeSpec TreeProofs ShareModel ShareSpec ShareProofs ShareProofs2 ShareProofs3.

Section P.
Context {V : Type}.
Implicit Types (h : heap V) (T : ptree V).
Implicit Types (cn cd : nat -> nat).
Implicit Types (w : world V) (e : event V).

Lemma shape_cshape : forall A (t : tree A), shape_of t = cshape t.
Proof.
  reflexivity.
Qed.
Lemma has_inv : forall lim h cn cd k o T T', ocp_inv lim h cn cd k o T -> has_params h o T' -> T' = T.
Proof. intros lim h cn cd k o T T' O [H _ _]. exact (denotes_fun _ _ _ _ H (oi_tree _ _ _ _ _ _ _ O)). Qed.

Lemma evolve_user : forall lim w cn cd w' cn' cd' P, inv lim w cn cd -> evolve (w_h w) cn cd (w_h w') cn' cd' P -> P 0 ->
  (exists ts, w_trees w' = w_trees w ++ ts) -> (exists ds, w_dicts w' = w_dicts w ++ ds) -> same_for_user w w'.
Proof.
  intros lim w cn cd w' cn' cd' P I Ev P0 (ts & Et) (ds & Ed). constructor.
  - intros i l T E. rewrite Et, nth_error_app1 by (apply nth_error_Some; congruence). split; [exact E|].
    destruct (nth_Forall _ _ _ _ _ (in_trees _ _ _ _ I) E) as (L1 & L2). exact (trees_frame _ _ _ _ _ _ _ l T (in_closed _ _ _ _ I) Ev P0 L1 L2).
  - intros j d E. rewrite Ed, nth_error_app1 by (apply nth_error_Some; congruence). split; [exact E|].
    destruct (nth_Forall _ _ _ _ _ (in_dicts _ _ _ _ I) E) as (D1 & D2). now apply (proj2 (ev_agree _ _ _ _ _ _ _ Ev 0 P0)).
Qed.
Lemma evolve_ocp : forall lim w cn cd w' cn' cd' P k, inv lim w cn cd -> evolve (w_h w) cn cd (w_h w') cn' cd' P -> P (1 + 2 * k) -> P (2 + 2 * k) ->
  (forall o, nth_error (w_ocps w) k = Some o -> nth_error (w_ocps w') k = Some o) -> same_ocp w w' k.
Proof.
  intros lim w cn cd w' cn' cd' P k I Ev P1 P2 En o E. split; [now apply En|]. intros T H. destruct (in_ocps _ _ _ _ I k o E) as (T0 & O). rewrite (has_inv _ _ _ _ _ _ _ _ O H).
  apply (ocp_has lim _ cn' cd' k). exact (ocp_frame lim _ _ _ _ _ _ P k o T0 (in_closed _ _ _ _ I) Ev P1 P2 O).
Qed.

(** ** the exact effect of set_param on objects that may be shared *)
Lemma loc_split : forall ns k, loc_ok (ns, k) = true -> removelast (split dot (dotted (ns, k))) = ns /\ last (split dot (dotted (ns, k))) "" = k /\ subtree_names dot (join dot ns) = ns.
Proof.
  intros ns k H. unfold loc_ok in H. cbn [fst snd] in H. apply andb_true_iff in H. destruct H as (H1 & H2). unfold dotted. cbn [fst snd].
  assert (C : forallb (no_char dot) ns = true). { clear - H1. induction ns as [|a r IH]; [reflexivity|]. cbn [forallb] in *. apply andb_true_iff in H1. destruct H1 as (A & B). unfold name_ok in A. apply andb_true_iff in A. now rewrite (proj1 A), IH. }
  rewrite split_join.
  - rewrite removelast_last, last_last. split; [reflexivity|]. split; [reflexivity|]. apply subtree_names_join; [exact C|]. intros ->. discriminate.
  - now destruct ns.
  - rewrite forallb_app, C. cbn [forallb]. unfold key_ok in H2. now rewrite H2.
Qed.
Lemma leads_same_nodes : forall h h' l ns n, h_nodes h' = h_nodes h -> (leads h' l ns n <-> leads h l ns n).
Proof.
  intros h h' l ns n E. rewrite <- !hwalk_leads. revert l. induction ns as [|a r IH]; intro l; cbn [hwalk]; [tauto|]. unfold hget_child. rewrite E. unfold lookup_err.
  destruct (dget a (o_children (h_nodes h l))); cbn [bind]; [apply IH|tauto].
Qed.
Lemma leads_fun : forall h l ns n n', leads h l ns n -> leads h l ns n' -> n = n'.
Proof. intros h l ns n n' A B. apply hwalk_leads in A, B. congruence. Qed.
Lemma hget_at : forall h l ns k, loc_ok (ns, k) = true ->
  hget_param h dot (dotted (ns, k)) l = bind (hwalk h ns l) (fun n => lookup_err k (h_dicts h (o_data (h_nodes h n)))).
Proof. intros h l ns k H. destruct (loc_split ns k H) as (A & B & C). unfold hget_param, hget_subtree. cbv zeta. now rewrite A, B, C. Qed.
Lemma hset_at : forall h l ns k v, loc_ok (ns, k) = true ->
  hset_param h dot (dotted (ns, k)) v l = bind (hwalk h ns l) (fun n => Ok (put_dict h (o_data (h_nodes h n)) (dset k v (h_dicts h (o_data (h_nodes h n)))))).
Proof. intros h l ns k v H. destruct (loc_split ns k H) as (A & B & C). unfold hset_param, hget_subtree. cbv zeta. now rewrite A, B, C. Qed.
Lemma hwalk_nodes : forall h h' ns l, h_nodes h' = h_nodes h -> hwalk h' ns l = hwalk h ns l.
Proof. intros h h' ns. induction ns as [|a r IH]; intros l E; cbn [hwalk]; [reflexivity|]. unfold hget_child. rewrite E. destruct (lookup_err a _); cbn [bind]; auto. Qed.

(** ** the objects of an unshared tree are kept apart *)
Lemma leads_in : forall h ns l n T, denotes h l T -> leads h l ns n -> In (o_data (h_nodes h n)) (drefs h T l).
Proof.
  intros h ns. induction ns as [|a r IH]; intros l n [d cs] H L; inversion L as [|? ? c ? ? E1 E2]; subst; rewrite drefs_node; [now left|]. right.
  apply denotes_inv in H. destruct H as (_ & H). clear L. revert E1. induction H as [|[m o] [m' t] os cs' [F1 F2] F3 IHF]; cbn [dget krefs fst snd] in *; [discriminate|]. intro E1. apply in_or_app.
  destruct (String.eqb a m); [injection E1 as ->; left; now apply (IH c)|right; now apply IHF].
Qed.
Lemma dget_two : forall h cs os a b x y n1 n2 ns1 ns2, Forall2 (fun oc kt => fst oc = fst kt /\ @denotes V h (snd oc) (snd kt)) os cs -> NoDup (krefs h cs os) ->
  dget a os = Some x -> dget b os = Some y -> leads h x ns1 n1 -> leads h y ns2 n2 -> o_data (h_nodes h n1) = o_data (h_nodes h n2) ->
  a = b /\ exists t, denotes h x t /\ NoDup (drefs h t x).
Proof.
  intros h cs os a b x y n1 n2 ns1 ns2 H. induction H as [|[m o] [m' t] os cs' [F1 F2] F3 IHF]; cbn [dget krefs fst snd] in *; [discriminate|]. intros N A B L1 L2 E.
  assert (KI : forall z u q r, dget z os = Some u -> leads h u q r -> In (o_data (h_nodes h r)) (krefs h cs' os)).
  { intros z u q r G L. clear - F3 G L. revert G. induction F3 as [|[m2 o2] [m3 t3] os2 cs2 [G1 G2] G3 IHG]; cbn [dget krefs fst snd] in *; [discriminate|]. intro G. apply in_or_app.
    destruct (String.eqb z m2); [injection G as ->; left; now apply (leads_in h q u)|right; now apply IHG]. }
  apply NoDup_app_inv in N. destruct N as (N1 & N2 & N3). destruct (String.eqb_spec a m) as [Ea|Ea], (String.eqb_spec b m) as [Eb|Eb].
  - injection A as ->. split; [congruence|]. now exists t.
  - injection A as ->. exfalso. apply (N3 (o_data (h_nodes h n1))); [now apply (leads_in h ns1 x)|]. rewrite E. now apply (KI b y ns2).
  - injection B as ->. exfalso. apply (N3 (o_data (h_nodes h n2))); [now apply (leads_in h ns2 y)|]. rewrite <- E. now apply (KI a x ns1).
  - now apply IHF.
Qed.
Lemma unshared_apart : forall h ns1 ns2 l T n1 n2, denotes h l T -> NoDup (drefs h T l) -> leads h l ns1 n1 -> leads h l ns2 n2 ->
  o_data (h_nodes h n1) = o_data (h_nodes h n2) -> ns1 = ns2.
Proof.
  intros h ns1. induction ns1 as [|a r IH]; intros ns2 l [d cs] n1 n2 H N L1 L2 E; rewrite drefs_node in N; apply denotes_inv in H; destruct H as (_ & H); inversion N as [|? ? N1 N2]; subst.
  - inversion L1; subst. destruct ns2 as [|b s]; [reflexivity|]. inversion L2 as [|? ? c ? ? E1 E2]; subst. exfalso. apply N1. rewrite E.
    clear - H E1 E2. revert E1. induction H as [|[m2 o2] [m3 t3] os2 cs2 [G1 G2] G3 IHG]; cbn [dget krefs fst snd] in *; [discriminate|]. intro G. apply in_or_app.
    destruct (String.eqb b m2); [injection G as ->; left; now apply (leads_in h s c)|right; now apply IHG].
  - inversion L1 as [|? ? c ? ? E1 E2]; subst. destruct ns2 as [|b s].
    + inversion L2; subst. exfalso. apply N1. rewrite <- E.
      clear - H E1 E2. revert E1. induction H as [|[m2 o2] [m3 t3] os2 cs2 [G1 G2] G3 IHG]; cbn [dget krefs fst snd] in *; [discriminate|]. intro G. apply in_or_app.
      destruct (String.eqb a m2); [injection G as ->; left; now apply (leads_in h r c)|right; now apply IHG].
    + inversion L2 as [|? ? c2 ? ? E3 E4]; subst. destruct (dget_two h cs _ a b c c2 n1 n2 r s H N2 E1 E3 E2 E4 E) as (<- & t & D1 & D2).
      rewrite E1 in E3. injection E3 as <-. f_equal. exact (IH s c t n1 n2 D1 D2 E2 E4 E).
Qed.

(** ** the example *)
Definition redirected h h' (d : nat) (ts : list nat) : Prop :=
  h_dicts h' = h_dicts h /\ forall n, h_nodes h' n = if existsb (Nat.eqb n) ts then {| o_data := d; o_children := o_children (h_nodes h n) |} else h_nodes h n.
Lemma dset_same : forall A k (v : A) d, dget k d = Some v -> dset k v d = d.
Proof.
  intros A k v d. induction d as [|[k' v'] r IH]; cbn [dget dset]; [discriminate|]. destruct (String.eqb_spec k k') as [->|]; intro E; [now injection E as ->|now rewrite IH].
Qed.
Lemma hwalk_children : forall h h' ns l, (forall n, o_children (h_nodes h' n) = o_children (h_nodes h n)) -> hwalk h' ns l = hwalk h ns l.
Proof. intros h h' ns. induction ns as [|a r IH]; intros l E; cbn [hwalk]; [reflexivity|]. unfold hget_child. rewrite E. destruct (lookup_err a _); cbn [bind]; auto. Qed.
Lemma hwalk_app : forall h a b l, hwalk h (a ++ b) l = bind (hwalk h a l) (hwalk h b).
Proof. intros h a. induction a as [|x r IH]; intros b l; [reflexivity|]. cbn [app hwalk]. destruct (hget_child h x l); cbn [bind]; auto. Qed.
Lemma sharpen_one : forall h l d c, no_char dot c = true ->
  match hwalk h ["vehicle"; String.append "tire_" c] l with
  | Ok t => exists h', hsharpen h l d c = Ok h' /\ redirected h h' d [t]
  | Raise e => hsharpen h l d c = Raise e
  end.
Proof.
  intros h l d c Hc. unfold hsharpen, hget_subtree. cbv zeta.
  assert (E : split dot (String.append "vehicle.tire_" c) = ["vehicle"; String.append "tire_" c]).
  { change (String.append "vehicle.tire_" c) with (join dot ["vehicle"; String.append "tire_" c]). apply split_join; [discriminate|]. cbn [forallb]. rewrite andb_true_r. apply andb_true_iff. split; [reflexivity|]. cbn. exact Hc. }
  assert (Es : subtree_names dot (String.append "vehicle.tire_" c) = ["vehicle"; String.append "tire_" c]) by (unfold subtree_names; rewrite E; reflexivity).
  rewrite Es. destruct (hwalk h ["vehicle"; String.append "tire_" c] l) as [t|e] eqn:Ew; [|reflexivity]. cbn [bind].
  unfold hreplace_subtree. rewrite E. cbv zeta. cbn [removelast last]. change (join dot ["vehicle"]) with "vehicle". unfold hget_subtree. change (subtree_names dot "vehicle") with ["vehicle"].
  rewrite (hwalk_children h (hset_data h t d)) by (intro n; cbn; now destruct (Nat.eqb_spec n t) as [->|]).
  change ["vehicle"; String.append "tire_" c] with (["vehicle"] ++ [String.append "tire_" c]) in Ew. rewrite hwalk_app in Ew. destruct (hwalk h ["vehicle"] l) as [p|] eqn:Ep; cbn [bind] in *; [|discriminate].
  cbn [hwalk] in Ew. unfold hget_child, lookup_err in Ew. destruct (dget (String.append "tire_" c) (o_children (h_nodes h p))) as [t'|] eqn:Eg; cbn [bind] in Ew; [|discriminate]. injection Ew as ->.
  assert (Ek : o_children (h_nodes (hset_data h t d) p) = o_children (h_nodes h p)) by (cbn; now destruct (Nat.eqb_spec p t) as [->|]).
  rewrite Ek. unfold dmem. rewrite Eg. eexists. split; [reflexivity|]. split; [reflexivity|]. intro n. rewrite (dset_same _ _ _ _ Eg). cbn [existsb]. rewrite orb_false_r.
  cbn. destruct (Nat.eqb_spec n p) as [->|]; [|destruct (Nat.eqb_spec n t) as [->|]; reflexivity]. destruct (Nat.eqb_spec p t) as [->|]; [reflexivity|]. now destruct (h_nodes h p).
Qed.
Lemma redirected_trans : forall h1 h2 h3 d a b, redirected h1 h2 d a -> redirected h2 h3 d b -> redirected h1 h3 d (a ++ b).
Proof.
  intros h1 h2 h3 d a b (A1 & A2) (B1 & B2). split; [congruence|]. intro n. rewrite B2, A2, existsb_app. destruct (existsb (Nat.eqb n) a), (existsb (Nat.eqb n) b); reflexivity.
Qed.
Lemma redirected_walk : forall h h' d ts ns l, redirected h h' d ts -> hwalk h' ns l = hwalk h ns l.
Proof. intros h h' d ts ns l (_ & H). apply hwalk_children. intro n. rewrite H. now destruct (existsb (Nat.eqb n) ts). Qed.
Lemma sharpen_all : forall h l d h', hsharpen_all h l d = Ok h' ->
  exists fl fr rl rr, leads h l ["vehicle"; "tire_fl"] fl /\ leads h l ["vehicle"; "tire_fr"] fr /\ leads h l ["vehicle"; "tire_rl"] rl /\ leads h l ["vehicle"; "tire_rr"] rr /\
    redirected h h' d [fl; fr; rl; rr].
Proof.
  intros h l d h' H. unfold hsharpen_all in H. cbn [foldM] in H.
  pose proof (sharpen_one h l d "fl" eq_refl) as A. cbn [String.append] in A. destruct (hwalk h ["vehicle"; "tire_fl"] l) as [fl|] eqn:E1; [|rewrite A in H; discriminate]. destruct A as (h1 & A1 & A2). rewrite A1 in H.
  pose proof (sharpen_one h1 l d "fr" eq_refl) as B. cbn [String.append] in B. rewrite (redirected_walk _ _ _ _ _ l A2) in B. destruct (hwalk h ["vehicle"; "tire_fr"] l) as [fr|] eqn:E2; [|rewrite B in H; discriminate]. destruct B as (h2 & B1 & B2). rewrite B1 in H.
  pose proof (redirected_trans _ _ _ _ _ _ A2 B2) as AB.
  pose proof (sharpen_one h2 l d "rl" eq_refl) as C. cbn [String.append] in C. rewrite (redirected_walk _ _ _ _ _ l AB) in C. destruct (hwalk h ["vehicle"; "tire_rl"] l) as [rl|] eqn:E3; [|rewrite C in H; discriminate]. destruct C as (h3 & C1 & C2). rewrite C1 in H.
  pose proof (redirected_trans _ _ _ _ _ _ AB C2) as AC.
  pose proof (sharpen_one h3 l d "rr" eq_refl) as D. cbn [String.append] in D. rewrite (redirected_walk _ _ _ _ _ l AC) in D. destruct (hwalk h ["vehicle"; "tire_rr"] l) as [rr|] eqn:E4; [|rewrite D in H; discriminate]. destruct D as (h4 & D1 & D2). rewrite D1 in H.
  injection H as <-. exists fl, fr, rl, rr. repeat split; try now apply hwalk_leads. all: apply (redirected_trans _ _ _ _ _ _ AC D2).
Qed.
End P.
