(** Lemmas for C62: setting a parameter of a tree of objects; the owners of the objects in a program. *)
From Verif Require Import Base TreeModel TreeSpec TreeProofs ShareModel ShareSpec ShareProofs.

Section P.
Context {V : Type}.
Implicit Types (h : heap V) (T : ptree V).
Implicit Types (cn cd : nat -> nat).

Lemma hwalk_leads : forall h ns l n, hwalk h ns l = Ok n <-> leads h l ns n.
Proof.
  intros h ns. induction ns as [|a r IH]; intros l n; cbn [hwalk].
  - split; [intro E; injection E as <-; constructor|intro E; inversion E; now subst].
  - unfold hget_child, lookup_err. split.
    + destruct (dget a (o_children (h_nodes h l))) as [c|] eqn:E; cbn [bind]; [|discriminate]. intro H. econstructor; [exact E|]. now apply IH.
    + intro H. inversion H as [|? ? c ? ? E1 E2]; subst. rewrite E1. cbn [bind]. now apply IH.
Qed.

Lemma drefs_nodes : forall T h h' l, h_nodes h' = h_nodes h -> drefs h' T l = drefs h T l.
Proof.
  intro T. induction T as [d cs IH] using tree_ind2. intros h h' l E. rewrite !drefs_node, E. f_equal.
  generalize (o_children (h_nodes h l)). induction IH as [|[n t] r It Ir IHr]; intro os; [reflexivity|]. destruct os as [|[m o] os]; [reflexivity|].
  cbn [krefs snd] in *. now rewrite (It h h' o E), IHr.
Qed.
Lemma krefs_nodes : forall cs h h' os, h_nodes h' = h_nodes h -> krefs h' cs os = krefs h cs os.
Proof.
  induction cs as [|[n t] r IHr]; intros h h' os E; [reflexivity|]. destruct os as [|[m o] os]; [reflexivity|].
  cbn [krefs snd]. now rewrite (drefs_nodes t h h' o E), (IHr h h').
Qed.
Lemma put_other : forall T h l d x, denotes h l T -> ~ In d (drefs h T l) -> denotes (put_dict h d x) l T.
Proof.
  intro T. induction T as [e cs IH] using tree_ind2. intros h l d x H N. rewrite drefs_node in N. apply denotes_inv in H. destruct H as (-> & H).
  assert (E : h_dicts h (o_data (h_nodes h l)) = h_dicts (put_dict h d x) (o_data (h_nodes (put_dict h d x) l))).
  { cbn. destruct (Nat.eqb_spec (o_data (h_nodes h l)) d) as [Q|Q]; [|reflexivity]. exfalso. apply N. now left. }
  rewrite E. constructor. cbn [put_dict h_nodes].
  assert (N' : ~ In d (krefs h cs (o_children (h_nodes h l)))) by (intro I; apply N; now right). clear N E.
  revert cs IH H N'. induction (o_children (h_nodes h l)) as [|[n o] r IHr]; intros cs IH H N'; inversion H as [|? [m t] ? ? [E1 E2] E3]; subst; [constructor|].
  inversion IH as [|? ? I1 I2]; subst. cbn [krefs fst snd] in *. constructor.
  - split; [exact E1|]. apply I1; [exact E2|]. intro I. apply N'. apply in_or_app. now left.
  - apply IHr; auto. intro I. apply N'. apply in_or_app. now right.
Qed.
Lemma kids_put : forall cs os h d x, Forall2 (fun oc kt => fst oc = fst kt /\ denotes h (snd oc) (snd kt)) os cs -> ~ In d (krefs h cs os) ->
  Forall2 (fun oc kt => fst oc = fst kt /\ denotes (put_dict h d x) (snd oc) (snd kt)) os cs.
Proof.
  induction cs as [|[n t] r IHr]; intros os h d x H N; inversion H as [|[m o] ? s ? [E1 E2] E3]; subst; [constructor|]. cbn [krefs fst snd] in *.
  constructor; [split; [exact E1|]; cbn [snd]; apply put_other; [exact E2|]|apply IHr; [exact E3|]]; intro I; apply N, in_or_app; auto.
Qed.
Lemma NoDup_app_inv : forall A (a b : list A), NoDup (a ++ b) -> NoDup a /\ NoDup b /\ forall x, In x a -> In x b -> False.
Proof.
  intros A a. induction a as [|x a IH]; cbn [app]; intros b H; [repeat split; auto; constructor|]. inversion H as [|? ? H1 H2]; subst.
  destruct (IH b H2) as (X & Y & Z). repeat split; auto.
  - constructor; [|exact X]. intro I. apply H1. apply in_or_app. now left.
  - intros y [<-|I] J; [apply H1; apply in_or_app; now right|now apply (Z y)].
Qed.
Lemma kids_find : forall n (cs : list (string * tree (dict V))) os h, Forall2 (fun oc kt => fst oc = fst kt /\ denotes h (snd oc) (snd kt)) os cs -> NoDup (krefs h cs os) ->
  (dget n cs = None /\ dget n os = None) \/
  exists t c, dget n cs = Some t /\ dget n os = Some c /\ denotes h c t /\ NoDup (drefs h t c) /\ incl (drefs h t c) (krefs h cs os) /\
    forall d x t', In d (drefs h t c) -> denotes (put_dict h d x) c t' ->
      Forall2 (fun oc kt => fst oc = fst kt /\ denotes (put_dict h d x) (snd oc) (snd kt)) os (dset n t' cs).
Proof.
  intro n. induction cs as [|[m t] r IHr]; intros os h H N; inversion H as [|[m' o] ? s ? [E1 E2] E3]; subst; [left; now split|].
  cbn [krefs fst snd dget dset] in *. subst m'. apply NoDup_app_inv in N. destruct N as (N1 & N2 & N3). destruct (String.eqb_spec n m) as [->|Ne].
  - right. exists t, o. repeat split; auto; [now apply incl_appl, incl_refl|]. intros d x t' I D.
    constructor; [now split|]. apply kids_put; [exact E3|]. intro J. now apply (N3 d).
  - destruct (IHr s h E3 N2) as [A|(t1 & c & G1 & G2 & G3 & G4 & G5 & G6)]; [now left|]. right. exists t1, c. repeat split; auto.
    + now apply incl_appr.
    + intros d x t' I D. constructor; [split; [reflexivity|]|now apply G6]. cbn [snd]. apply put_other; [exact E2|]. intro J. apply (N3 d J). now apply G5.
Qed.
Lemma update_unshared : forall (g : dict V -> dict V) ns h l T, denotes h l T -> NoDup (drefs h T l) ->
  match update_at ns (fun n => match n with Node d c => Ok (Node (g d) c) end) T with
  | Ok T' => exists n, hwalk h ns l = Ok n /\ In (o_data (h_nodes h n)) (drefs h T l) /\
      denotes (put_dict h (o_data (h_nodes h n)) (g (h_dicts h (o_data (h_nodes h n))))) l T'
  | Raise e => hwalk h ns l = Raise e
  end.
Proof.
  intros g ns. induction ns as [|a r IH]; intros h l [d cs] H N; apply denotes_inv in H; destruct H as (-> & H); cbn [update_at hwalk].
  - exists l. split; [reflexivity|]. split; [now left|]. set (d := o_data (h_nodes h l)).
    replace (g (h_dicts h d)) with (h_dicts (put_dict h d (g (h_dicts h d))) (o_data (h_nodes (put_dict h d (g (h_dicts h d))) l))) at 2.
    + constructor. cbn [put_dict h_nodes]. apply kids_put; [exact H|]. rewrite drefs_node in N. now inversion N.
    + cbn. fold d. now rewrite Nat.eqb_refl.
  - rewrite drefs_node in N. inversion N as [|? ? N1 N2]; subst. unfold hget_child, lookup_err.
    destruct (kids_find a cs _ h H N2) as [(A & B)|(t & c & G1 & G2 & G3 & G4 & G5 & G6)].
    + rewrite A, B. reflexivity.
    + rewrite G1, G2. cbn [bind]. specialize (IH h c t G3 G4).
      destruct (update_at r _ t) as [t'|e]; cbn [fmap]; [|exact IH]. destruct IH as (n & I1 & I2 & I3). exists n. split; [exact I1|].
      split; [right; now apply G5|]. set (e := o_data (h_nodes h n)) in *.
      assert (Ne : o_data (h_nodes h l) <> e) by (intro Q; apply N1; rewrite Q; now apply G5).
      replace (h_dicts h (o_data (h_nodes h l))) with (h_dicts (put_dict h e (g (h_dicts h e))) (o_data (h_nodes (put_dict h e (g (h_dicts h e))) l))).
      * constructor. cbn [put_dict h_nodes]. now apply G6.
      * cbn. destruct (Nat.eqb_spec (o_data (h_nodes h l)) e); [contradiction|reflexivity].
Qed.
(** set_param on an unshared tree of objects is set_param on what it holds *)
Lemma set_unshared : forall h l T p v, denotes h l T -> NoDup (drefs h T l) ->
  match set_param dot p v T with
  | Ok T' => exists d x, hset_param h dot p v l = Ok (put_dict h d x) /\ In d (drefs h T l) /\ denotes (put_dict h d x) l T'
  | Raise e => hset_param h dot p v l = Raise e
  end.
Proof.
  intros h l T p v H N. unfold set_param, set_leaf, hset_param, hget_subtree. cbv zeta.
  pose proof (update_unshared (dset (last (split dot p) "") v) (subtree_names dot (join dot (removelast (split dot p)))) h l T H N) as U.
  cbv beta in U. destruct (update_at _ _ T) as [T'|e]; [|now rewrite U]. destruct U as (n & U1 & U2 & U3). rewrite U1. cbn [bind]. eexists. eexists. split; [reflexivity|]. now split.
Qed.
Lemma set_shape : forall p v T T', @set_param V dot p v T = Ok T' -> shape_of T' = shape_of T.
Proof.
  intros p v T T'. unfold set_param, set_leaf. cbv zeta. generalize (subtree_names dot (join dot (removelast (split dot p)))). intro ns. revert T T'.
  induction ns as [|a r IH]; intros [d cs] T'; cbn [update_at].
  - intro E. injection E as <-. reflexivity.
  - destruct (dget a cs) as [t|] eqn:G; [|discriminate]. destruct (update_at r _ t) as [t'|] eqn:E; cbn [fmap]; [|discriminate]. intro Q. injection Q as <-.
    apply IH in E. cbn [shape_of]. f_equal. clear IH. revert G. induction cs as [|[k s] cs IHc]; cbn [dget dset]; [discriminate|]. destruct (String.eqb_spec a k) as [->|].
    + intro Q. injection Q as ->. cbn [map fst snd]. now rewrite E.
    + intro Q. cbn [map]. now rewrite IHc.
Qed.
Lemma names_shape : forall A B (a : tree A) (b : tree B), shape_of a = shape_of b -> distinct_names a -> distinct_names b.
Proof.
  intros A B a. induction a as [x cs IH] using tree_ind2. intros [y ds] E H. cbn [shape_of] in E. injection E as E. cbn [distinct_names] in *. destruct H as (H1 & H2). split.
  - assert (M : map fst cs = map fst ds); [|now rewrite <- M].
    transitivity (map fst (map (fun kv => (fst kv, shape_of (snd kv))) cs)); [now rewrite map_map|]. rewrite E. now rewrite map_map.
  - clear H1. revert ds E. induction IH as [|[n t] r It Ir IHr]; intros [|[m s] ds] E; cbn [map] in E; try discriminate; [exact I|].
    injection E as -> E1 E2. destruct H2 as (H2 & H3). cbn [snd] in *. split; [now apply It|now apply IHr].
Qed.
Lemma depth_shape : forall A B (a : tree A) (b : tree B), shape_of a = shape_of b -> depth a = depth b.
Proof.
  intros A B a. induction a as [x cs IH] using tree_ind2. intros [y ds] E. cbn [shape_of] in E. injection E as E. cbn [depth]. do 2 f_equal.
  revert ds E. induction IH as [|[n t] r It Ir IHr]; intros [|[m s] ds] E; cbn [map] in E; try discriminate; [reflexivity|].
  injection E as -> E1 E2. cbn [map snd] in *. f_equal; [now apply It|now apply IHr].
Qed.
Lemma shape_shape : forall A (a : tree A), shape_of (shape_of a) = shape_of a.
Proof.
  intros A a. induction a as [x cs IH] using tree_ind2. cbn [shape_of]. f_equal. rewrite map_map. induction IH as [|[n t] r It Ir IHr]; [reflexivity|].
  cbn [map fst snd] in *. now rewrite It, IHr.
Qed.
(** what is held is seen *)
Lemma dget_kids : forall h cs os, Forall2 (fun oc kt => fst oc = fst kt /\ @denotes V h (snd oc) (snd kt)) os cs -> NoDup (map fst cs) ->
  forall k t, In (k, t) cs -> exists c, dget k os = Some c /\ denotes h c t.
Proof.
  intros h cs os H. induction H as [|[m o] [n s] os' cs' [E1 E2] E3 IH]; intros N k t I; [destruct I|]. cbn [fst snd map dget] in *. subst m.
  inversion N as [|? ? N1 N2]; subst. destruct I as [I|I].
  - injection I as -> ->. rewrite String.eqb_refl. now exists o.
  - destruct (String.eqb_spec k n) as [->|]; [|now apply IH]. exfalso. apply N1. now apply (in_map fst _ (n, t)).
Qed.
Lemma distinct_kids : forall A d (cs : list (string * tree A)), distinct_names (Node d cs) -> NoDup (map fst cs) /\ Forall (fun kt => distinct_names (snd kt)) cs.
Proof.
  intros A d cs (H1 & H2). split; [exact H1|]. clear H1. induction cs as [|[n t] r IHr]; [constructor|]. destruct H2 as (A1 & A2). constructor; [exact A1|now apply IHr].
Qed.
Lemma denotes_seen : forall h T l, distinct_names T -> denotes h l T -> seen h l T.
Proof.
  intros h T. induction T as [d cs IH] using tree_ind2. intros l N H. apply distinct_kids in N. destruct N as (N1 & N2). apply denotes_inv in H. destruct H as (-> & H). constructor.
  rewrite Forall_forall in IH, N2 |- *. intros [k t] I. destruct (dget_kids h cs _ H N1 k t I) as (c & G & D). exists c. split; [exact G|].
  cbn [snd]. apply (IH (k, t) I); [apply (N2 (k, t) I)|exact D].
Qed.
Lemma seen_shape_eq : forall h T T' l, seen h l T -> seen h l T' -> shape_of T = shape_of T' -> T = T'.
Proof.
  intros h T. induction T as [d cs IH] using tree_ind2. intros [d' cs'] l H H' E. apply seen_inv in H. apply seen_inv in H'. destruct H as (-> & H), H' as (-> & H').
  cbn [shape_of] in E. injection E as E. f_equal. revert cs' H' E. induction cs as [|[n t] r IHr]; intros [|[m s] cs'] H' E; cbn [map fst snd] in E; try discriminate; [reflexivity|].
  injection E as <- E1 E2. inversion H as [|? ? (c & C1 & C2) H2]; subst. inversion H' as [|? ? (c' & C1' & C2') H2']; subst. inversion IH as [|? ? I1 I2]; subst. cbn [fst snd] in *.
  rewrite C1 in C1'. injection C1' as <-. f_equal; [f_equal; now apply (I1 s c)|now apply IHr].
Qed.

(** ** owners: 0 the user, 1 + 2 k the tree of problem k, 2 + 2 k its model *)
Definition rc (f : nat -> nat) (n c : nat) : nat -> nat := fun i => if Nat.ltb i n then f i else c.
Lemma rc_old : forall f n c i, i < n -> rc f n c i = f i.
Proof. intros f n c i H. unfold rc. now apply Nat.ltb_lt in H as ->. Qed.
Lemma rc_new : forall f n c i, n <= i -> rc f n c i = c.
Proof. intros f n c i H. unfold rc. now apply Nat.ltb_ge in H as ->. Qed.
Record evolve h cn cd h' cn' cd' (P : nat -> Prop) : Prop := {
  ev_nn : h_nn h <= h_nn h'; ev_nd : h_nd h <= h_nd h';
  ev_cn : forall l, l < h_nn h -> cn' l = cn l; ev_cd : forall d, d < h_nd h -> cd' d = cd d;
  ev_closed : closed h' cn' cd';
  ev_agree : forall c, P c -> agree h h' cn cd c }.
Lemma evolve_trans : forall h1 n1 d1 h2 n2 d2 h3 n3 d3 P Q, evolve h1 n1 d1 h2 n2 d2 P -> evolve h2 n2 d2 h3 n3 d3 Q ->
  evolve h1 n1 d1 h3 n3 d3 (fun c => P c /\ Q c).
Proof.
  intros h1 n1 d1 h2 n2 d2 h3 n3 d3 P Q [a b c d e f] [a' b' c' d' e' f']. constructor; try lia; auto.
  - intros l Hl. rewrite c' by lia. now apply c.
  - intros l Hl. rewrite d' by lia. now apply d.
  - intros k (Hp & Hq). destruct (f k Hp) as (X & Y), (f' k Hq) as (X' & Y'). split.
    + intros l Hl E. rewrite X' by (try lia; rewrite c; auto). now apply X.
    + intros l Hl E. rewrite Y' by (try lia; rewrite d; auto). now apply Y.
Qed.
Lemma evolve_weaken : forall h1 n1 d1 h2 n2 d2 (P Q : nat -> Prop), (forall c, Q c -> P c) -> evolve h1 n1 d1 h2 n2 d2 P -> evolve h1 n1 d1 h2 n2 d2 Q.
Proof. intros h1 n1 d1 h2 n2 d2 P Q H [a b c d e f]. constructor; auto. Qed.
Lemma evolve_refl : forall h cn cd P, closed h cn cd -> evolve h cn cd h cn cd P.
Proof. intros h cn cd P H. constructor; auto. intros c _. now split. Qed.
Lemma evolve_alloc : forall h h' cn cd c, closed h cn cd -> ext h h' -> own h h' -> evolve h cn cd h' (rc cn (h_nn h) c) (rc cd (h_nd h) c) (fun _ => True).
Proof.
  intros h h' cn cd c Hc [a b e f] O. constructor; auto.
  - intros l Hl. now apply rc_old.
  - intros l Hl. now apply rc_old.
  - intros l Hl. destruct (Nat.lt_ge_cases l (h_nn h)) as [L|L].
    + rewrite e by exact L. destruct (Hc l L) as (X & Y & Z). split; [lia|]. rewrite !rc_old by assumption. split; [exact Y|].
      eapply Forall_impl; [|exact Z]. cbn. intros [n k] (K1 & K2). cbn [snd] in *. rewrite rc_old by assumption. split; [lia|exact K2].
    + destruct (O l ltac:(lia)) as (X & Y). rewrite !rc_new by lia. split; [lia|]. split; [reflexivity|].
      eapply Forall_impl; [|exact Y]. cbn. intros [n k] K1. cbn [snd] in *. rewrite rc_new by lia. split; [lia|reflexivity].
  - intros k _. split; intros; auto.
Qed.
Lemma evolve_put_dict : forall h cn cd d x, closed h cn cd -> evolve h cn cd (put_dict h d x) cn cd (fun c => c <> cd d).
Proof.
  intros h cn cd d x Hc. constructor; cbn; auto. intros c Ne. split; [reflexivity|]. intros e He E. cbn. destruct (Nat.eqb_spec e d) as [->|]; [congruence|reflexivity].
Qed.
Lemma evolve_put_node : forall h cn cd l ob, closed h cn cd -> l < h_nn h -> o_data ob < h_nd h -> cd (o_data ob) = cn l ->
  Forall (fun kc => snd kc < h_nn h /\ cn (snd kc) = cn l) (o_children ob) -> evolve h cn cd (put_node h l ob) cn cd (fun c => c <> cn l).
Proof.
  intros h cn cd l ob Hc Hl Hd Hdc Hk. constructor; auto.
  - intros i Hi. cbn. destruct (Nat.eqb_spec i l) as [->|]; [now repeat split|]. now apply Hc.
  - intros c Ne. split; [|reflexivity]. intros e He E. cbn. destruct (Nat.eqb_spec e l) as [->|]; [congruence|reflexivity].
Qed.
Lemma leads_color : forall h cn cd l ns n, closed h cn cd -> leads h l ns n -> l < h_nn h -> n < h_nn h /\ cn n = cn l.
Proof.
  intros h cn cd l ns n Hc H. induction H as [|l a c ns n G H IH]; intro Hl; [now split|]. destruct (Hc l Hl) as (_ & _ & Hk).
  rewrite Forall_forall in Hk. destruct (Hk _ (dget_In' _ _ _ _ G)) as (K1 & K2). cbn [snd] in *. destruct (IH K1) as (I1 & I2). split; [exact I1|congruence].
Qed.

(** ** the state of a problem *)
Record ocp_inv (lim : nat) h cn cd (k : nat) (o : rocp V) T : Prop := {
  oi_ref : r_params o < h_nn h; oi_col : cn (r_params o) = 1 + 2 * k;
  oi_mrefs : Forall (fun d => d < h_nd h /\ cd d = 2 + 2 * k) (trefs (r_model o));
  oi_tree : denotes h (r_params o) T; oi_nodup : NoDup (drefs h T (r_params o)); oi_model : tmap (h_dicts h) (r_model o) = T; oi_names : distinct_names T;
  oi_con : r_con o = if r_cas o then Flat (map snd (make_flat_dict "" T)) else Live (r_params o);
  oi_depth : r_cas o = true -> depth T <= lim }.
Record inv (lim : nat) (w : world V) cn cd : Prop := {
  in_closed : closed (w_h w) cn cd;
  in_trees : Forall (fun l => l < h_nn (w_h w) /\ cn l = 0) (w_trees w);
  in_dicts : Forall (fun d => d < h_nd (w_h w) /\ cd d = 0) (w_dicts w);
  in_ocps : forall k o, nth_error (w_ocps w) k = Some o -> exists T, ocp_inv lim (w_h w) cn cd k o T }.
Lemma ocp_frame : forall lim h cn cd h' cn' cd' (P : nat -> Prop) k o T, closed h cn cd -> evolve h cn cd h' cn' cd' P -> P (1 + 2 * k) -> P (2 + 2 * k) ->
  ocp_inv lim h cn cd k o T -> ocp_inv lim h' cn' cd' k o T.
Proof.
  intros lim h cn cd h' cn' cd' P k o T Hc [a b c d e f] P1 P2 [i1 i2 i3 i4 i5 i6 i7 i8 i9].
  destruct (frame h h' cn cd (1 + 2 * k) Hc (f _ P1) T (r_params o) i1 i2 i4) as (F1 & F2 & F3). constructor; auto; try lia.
  - rewrite c; auto.
  - eapply Forall_impl; [|exact i3]. cbn beta. intros x (X1 & X2). split; [lia|]. rewrite d; auto.
  - now rewrite F2.
  - rewrite <- i6. apply tmap_ext. eapply Forall_impl; [|exact i3]. cbn beta. intros x (X1 & X2). now apply (proj2 (f _ P2)).
Qed.
Lemma ocp_has : forall lim h cn cd k o T, ocp_inv lim h cn cd k o T -> has_params h o T.
Proof.
  intros lim h cn cd k o T [i1 i2 i3 i4 i5 i6 i7 i8 i9]. constructor; auto. intros n Hn. rewrite i8. destruct (r_cas o); cbn [hused]; [reflexivity|].
  now rewrite (hread_complete T n h _ i4 Hn).
Qed.
Lemma trees_frame : forall h cn cd h' cn' cd' P l T, closed h cn cd -> evolve h cn cd h' cn' cd' P -> P 0 -> l < h_nn h -> cn l = 0 -> denotes h l T -> denotes h' l T.
Proof.
  intros h cn cd h' cn' cd' P l T Hc [a b c d e f] P0 Hl Hcol H. now destruct (frame h h' cn cd 0 Hc (f _ P0) T l Hl Hcol H).
Qed.
Lemma user_refs : forall h cn cd h' cn' cd' P ts, evolve h cn cd h' cn' cd' P -> Forall (fun l => l < h_nn h /\ cn l = 0) ts -> Forall (fun l => l < h_nn h' /\ cn' l = 0) ts.
Proof.
  intros h cn cd h' cn' cd' P ts [a b c d e f] H. eapply Forall_impl; [|exact H]. cbn beta. intros l (L1 & L2). split; [lia|]. rewrite c; auto.
Qed.
Lemma user_drefs : forall h cn cd h' cn' cd' P ts, evolve h cn cd h' cn' cd' P -> Forall (fun l => l < h_nd h /\ cd l = 0) ts -> Forall (fun l => l < h_nd h' /\ cd' l = 0) ts.
Proof.
  intros h cn cd h' cn' cd' P ts [a b c d e f] H. eapply Forall_impl; [|exact H]. cbn beta. intros l (L1 & L2). split; [lia|]. rewrite d; auto.
Qed.
End P.
