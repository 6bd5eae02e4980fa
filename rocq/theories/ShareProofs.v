(** Lemmas for C62: building, reading and copying trees of objects. *)
From Verif Require Import Base TreeModel TreeSpec TreeProofs ShareModel ShareSpec.

Section P.
Context {V : Type}.
Implicit Types (h : heap V) (T : ptree V).
Implicit Types (cn cd : nat -> nat).

Lemma denotes_inv : forall h l d cs, denotes h l (Node d cs) ->
  d = h_dicts h (o_data (h_nodes h l)) /\ Forall2 (fun oc kt => fst oc = fst kt /\ denotes h (snd oc) (snd kt)) (o_children (h_nodes h l)) cs.
Proof. intros h l d cs H. inversion H; subst. now split. Qed.
Lemma seen_inv : forall h l d cs, seen h l (Node d cs) ->
  d = h_dicts h (o_data (h_nodes h l)) /\ Forall (fun kt => exists c, dget (fst kt) (o_children (h_nodes h l)) = Some c /\ seen h c (snd kt)) cs.
Proof. intros h l d cs H. inversion H; subst. now split. Qed.
Lemma denotes_fun : forall h T T' l, denotes h l T -> denotes h l T' -> T = T'.
Proof.
  intros h T. induction T as [d cs IH] using tree_ind2. intros [d' cs'] l H H'.
  apply denotes_inv in H. apply denotes_inv in H'. destruct H as (-> & H), H' as (-> & H'). f_equal.
  revert cs cs' IH H H'. induction (o_children (h_nodes h l)) as [|[n o] r IHr]; intros cs cs' IH H H'; inversion H; inversion H'; subst; [reflexivity|].
  inversion IH as [|? ? I1 I2]; subst. f_equal; [|now apply IHr].
  destruct y as [n1 t1], y0 as [n2 t2]. cbn [fst snd] in *. destruct H2 as (<- & E1), H7 as (<- & E2). f_equal. eapply I1; eassumption.
Qed.

(** the dict objects below a node, along a tree *)
Fixpoint drefs h (T : ptree V) (l : nat) : list nat :=
  match T with
  | Node _ cs => o_data (h_nodes h l) ::
      (fix each (cs : list (string * ptree V)) (os : dict nat) : list nat :=
         match cs, os with kt :: r, oc :: s => drefs h (snd kt) (snd oc) ++ each r s | _, _ => [] end) cs (o_children (h_nodes h l))
  end.
Definition krefs h := fix each (cs : list (string * ptree V)) (os : dict nat) : list nat :=
         match cs, os with kt :: r, oc :: s => drefs h (snd kt) (snd oc) ++ each r s | _, _ => [] end.
Lemma drefs_node : forall h d cs l, drefs h (Node d cs) l = o_data (h_nodes h l) :: krefs h cs (o_children (h_nodes h l)).
Proof. reflexivity. Qed.

(** colours: every object has an owner, references stay within the owner *)
Definition closed h cn cd : Prop := forall l, l < h_nn h ->
  o_data (h_nodes h l) < h_nd h /\ cd (o_data (h_nodes h l)) = cn l /\ Forall (fun kc => snd kc < h_nn h /\ cn (snd kc) = cn l) (o_children (h_nodes h l)).
Definition agree h h' cn cd (c : nat) : Prop :=
  (forall l, l < h_nn h -> cn l = c -> h_nodes h' l = h_nodes h l) /\ (forall d, d < h_nd h -> cd d = c -> h_dicts h' d = h_dicts h d).

Lemma frame : forall h h' cn cd c, closed h cn cd -> agree h h' cn cd c -> forall T l, l < h_nn h -> cn l = c ->
  denotes h l T -> denotes h' l T /\ drefs h' T l = drefs h T l /\ Forall (fun d => d < h_nd h /\ cd d = c) (drefs h T l).
Proof.
  intros h h' cn cd c Hc [An Ad] T. induction T as [d cs IH] using tree_ind2. intros l Hl Hcol H.
  apply denotes_inv in H. destruct H as (-> & H). destruct (Hc l Hl) as (Hd & Hdc & Hk).
  assert (K : Forall2 (fun oc kt => fst oc = fst kt /\ denotes h' (snd oc) (snd kt)) (o_children (h_nodes h l)) cs /\
              krefs h' cs (o_children (h_nodes h l)) = krefs h cs (o_children (h_nodes h l)) /\
              Forall (fun d => d < h_nd h /\ cd d = c) (krefs h cs (o_children (h_nodes h l)))).
  { clear Hd Hdc. revert cs IH H. induction (o_children (h_nodes h l)) as [|[n o] r IHr]; intros cs IH H; inversion H as [|? [m t] ? ? [E1 E2] E3]; subst; cbn [krefs].
    - repeat split; constructor.
    - inversion IH as [|? ? I1 I2]; subst. inversion Hk as [|? ? [K1 K2] K3]; subst. cbn [fst snd] in *.
      destruct (IHr K3 _ I2 E3) as (R1 & R2 & R3). destruct (I1 o K1 K2 E2) as (S1 & S2 & S3).
      split; [constructor; [now split|exact R1]|]. split; [now rewrite S2, R2|]. apply Forall_app. now split. }
  destruct K as (K1 & K2 & K3).
  assert (En : h_nodes h' l = h_nodes h l) by now apply An.
  split; [|split].
  - rewrite <- (Ad _ Hd ltac:(congruence)), <- En. constructor. now rewrite En.
  - rewrite !drefs_node, En. now rewrite K2.
  - rewrite drefs_node. constructor; [split; [exact Hd|congruence]|exact K3].
Qed.

(** only new objects *)
Record ext h h' : Prop := { ex_nn : h_nn h <= h_nn h'; ex_nd : h_nd h <= h_nd h';
  ex_nodes : forall l, l < h_nn h -> h_nodes h' l = h_nodes h l; ex_dicts : forall d, d < h_nd h -> h_dicts h' d = h_dicts h d }.
Lemma ext_refl : forall h, ext h h.
Proof. intro h. now constructor. Qed.
Lemma ext_trans : forall h1 h2 h3, ext h1 h2 -> ext h2 h3 -> ext h1 h3.
Proof.
  intros h1 h2 h3 [a b c d] [a' b' c' d']. constructor; try lia.
  - intros l Hl. rewrite c' by lia. now apply c.
  - intros x Hx. rewrite d' by lia. now apply d.
Qed.
(** the new objects refer to new objects only *)
Definition own h h' : Prop := forall l, h_nn h <= l < h_nn h' ->
  h_nd h <= o_data (h_nodes h' l) < h_nd h' /\ Forall (fun kc => h_nn h <= snd kc < h_nn h') (o_children (h_nodes h' l)).
Lemma own_refl : forall h, own h h.
Proof. intros h l Hl. lia. Qed.
Lemma own_trans : forall h1 h2 h3, ext h1 h2 -> ext h2 h3 -> own h1 h2 -> own h2 h3 -> own h1 h3.
Proof.
  intros h1 h2 h3 [a b c d] [a' b' c' d'] O1 O2 l Hl. destruct (Nat.lt_ge_cases l (h_nn h2)) as [L|L].
  - rewrite c' by lia. destruct (O1 l ltac:(lia)) as [X Y]. split; [lia|]. eapply Forall_impl; [|exact Y]. cbn. intros; lia.
  - destruct (O2 l ltac:(lia)) as [X Y]. split; [lia|]. eapply Forall_impl; [|exact Y]. cbn. intros; lia.
Qed.
(** within the new objects *)
Lemma frame_own : forall h0 h h', own h0 h -> ext h h' -> forall T l, h_nn h0 <= l < h_nn h ->
  denotes h l T -> denotes h' l T /\ drefs h' T l = drefs h T l /\ Forall (fun d => h_nd h0 <= d < h_nd h) (drefs h T l).
Proof.
  intros h0 h h' O [en ed enn edd] T. induction T as [d cs IH] using tree_ind2. intros l Hl H.
  apply denotes_inv in H. destruct H as (-> & H). destruct (O l Hl) as (Hd & Hk).
  assert (K : Forall2 (fun oc kt => fst oc = fst kt /\ denotes h' (snd oc) (snd kt)) (o_children (h_nodes h l)) cs /\
              krefs h' cs (o_children (h_nodes h l)) = krefs h cs (o_children (h_nodes h l)) /\
              Forall (fun d => h_nd h0 <= d < h_nd h) (krefs h cs (o_children (h_nodes h l)))).
  { clear Hd. revert cs IH H. induction (o_children (h_nodes h l)) as [|[n o] r IHr]; intros cs IH H; inversion H as [|? [m t] ? ? [E1 E2] E3]; subst; cbn [krefs].
    - repeat split; constructor.
    - inversion IH as [|? ? I1 I2]; subst. inversion Hk as [|? ? K1 K3]; subst. cbn [fst snd] in *.
      destruct (IHr K3 _ I2 E3) as (R1 & R2 & R3). destruct (I1 o K1 E2) as (S1 & S2 & S3).
      split; [constructor; [now split|exact R1]|]. split; [now rewrite S2, R2|]. apply Forall_app. now split. }
  destruct K as (K1 & K2 & K3).
  assert (En : h_nodes h' l = h_nodes h l) by (apply enn; lia).
  split; [|split].
  - rewrite <- (edd _ (proj2 Hd)), <- En. constructor. now rewrite En.
  - rewrite !drefs_node, En. now rewrite K2.
  - rewrite drefs_node. constructor; [exact Hd|exact K3].
Qed.

(** ** building a tree *)
Definition bkids := fix each (l : list (string * ptree V)) (h : heap V) : heap V * dict nat :=
                   match l with [] => (h, []) | (n, t) :: r => let x := hbuild h t in let y := each r (fst x) in (fst y, (n, snd x) :: snd y) end.
Lemma hbuild_eq : forall h d cs, hbuild h (Node d cs) =
  let hd := new_dict h d in let hc := bkids cs (fst hd) in new_node (fst hc) (snd hd) (snd hc).
Proof. reflexivity. Qed.
Lemma NoDup_app' : forall A (a b : list A), NoDup a -> NoDup b -> (forall x, In x a -> In x b -> False) -> NoDup (a ++ b).
Proof.
  intros A a b Ha Hb H. induction Ha as [|x a Hx Ha IH]; [exact Hb|]. cbn [app]. constructor.
  - intro I. apply in_app_or in I. destruct I as [I|I]; [now apply Hx|]. apply (H x); [now left|exact I].
  - apply IH. intros y Hy. apply H. now right.
Qed.
Lemma new_dict_ext : forall h d, ext h (fst (new_dict h d)).
Proof.
  intros h d. constructor; cbn; try lia; [reflexivity|]. intros x Hx. destruct (Nat.eqb_spec x (h_nd h)); [lia|reflexivity].
Qed.
Lemma new_node_ext : forall h d c, ext h (fst (new_node h d c)).
Proof.
  intros h d c. constructor; cbn; try lia; [|reflexivity]. intros x Hx. destruct (Nat.eqb_spec x (h_nn h)); [lia|reflexivity].
Qed.
Lemma hbuild_spec : forall T h, let x := hbuild h T in
  ext h (fst x) /\ own h (fst x) /\ h_nn h <= snd x < h_nn (fst x) /\ denotes (fst x) (snd x) T /\ NoDup (drefs (fst x) T (snd x)).
Proof.
  intro T. induction T as [d cs IH] using tree_ind2. intro h. rewrite hbuild_eq. cbv zeta.
  set (h1 := fst (new_dict h d)).
  assert (E1 : ext h h1) by apply new_dict_ext.
  assert (N1 : h_nn h1 = h_nn h) by reflexivity. assert (D1 : h_nd h1 = S (h_nd h)) by reflexivity.
  assert (K : let y := bkids cs h1 in ext h1 (fst y) /\ own h1 (fst y) /\ Forall (fun kc => h_nn h1 <= snd kc < h_nn (fst y)) (snd y) /\
    Forall2 (fun oc kt => fst oc = fst kt /\ denotes (fst y) (snd oc) (snd kt)) (snd y) cs /\ NoDup (krefs (fst y) cs (snd y)) /\
    Forall (fun x => h_nd h1 <= x < h_nd (fst y)) (krefs (fst y) cs (snd y))).
  { clear E1 N1 D1. generalize h1. clear h1. induction IH as [|[n t] r It Ir IHr]; intro h1; cbn [bkids fst snd].
    - repeat split; try constructor; try lia; auto; try apply own_refl; auto.
    - cbn [snd] in It. cbv zeta. pose proof (It h1) as B. cbv zeta in B. destruct (hbuild h1 t) as [h2 l2] eqn:E2. cbn [fst snd] in B |- *.
      destruct B as (B1 & B2 & B3 & B4 & B5).
      pose proof (IHr h2) as C. cbv zeta in C. destruct (bkids r h2) as [h3 os] eqn:E3. cbn [fst snd] in C |- *. destruct C as (C1 & C2 & C3 & C4 & C5 & C6).
      destruct (frame_own h1 h2 h3 B2 C1 t l2 B3 B4) as (F1 & F2 & F3).
      split; [now apply (ext_trans _ h2)|]. split; [now apply (own_trans _ h2)|].
      pose proof (ex_nn _ _ B1). pose proof (ex_nn _ _ C1). pose proof (ex_nd _ _ B1). pose proof (ex_nd _ _ C1).
      split; [constructor; [cbn; lia|eapply Forall_impl; [|exact C3]; cbn; intros; lia]|].
      split; [constructor; [now split|exact C4]|]. cbn [krefs snd]. rewrite F2. split.
      + apply NoDup_app'; [exact B5|exact C5|]. intros x X1 X2. rewrite Forall_forall in F3, C6. specialize (F3 x X1). specialize (C6 x X2). lia.
      + apply Forall_app. split; [eapply Forall_impl; [|exact F3]|eapply Forall_impl; [|exact C6]]; cbn; intros; lia. }
  cbv zeta in K. destruct (bkids cs h1) as [h2 os] eqn:E2. cbn [fst snd] in K |- *. destruct K as (K1 & K2 & K3 & K4 & K5 & K6).
  set (h3 := fst (new_node h2 (snd (new_dict h d)) os)).
  assert (E3 : ext h2 h3) by apply new_node_ext.
  assert (N3 : h_nn h3 = S (h_nn h2)) by reflexivity. assert (D3 : h_nd h3 = h_nd h2) by reflexivity.
  pose proof (ex_nn _ _ K1). pose proof (ex_nd _ _ K1).
  change (snd (new_node h2 (snd (new_dict h d)) os)) with (h_nn h2).
  assert (Nl : h_nodes h3 (h_nn h2) = {| o_data := h_nd h; o_children := os |}) by (cbn; now rewrite Nat.eqb_refl).
  assert (R : Forall2 (fun oc kt => fst oc = fst kt /\ denotes h3 (snd oc) (snd kt)) os cs /\ krefs h3 cs os = krefs h2 cs os).
  { clear - K2 K3 K4 E3. revert K2 K3 K4 E3. generalize h3 h1. clear h3 h1. intros h3 h1 K2 K3 K4 E3. revert os K3 K4. induction cs as [|[n t] r IHr]; intros os K3 K4; inversion K4 as [|[m o] ? s ? [E1 E2] E4]; subst.
    - split; [constructor|reflexivity].
    - inversion K3 as [|? ? K31 K32]; subst. cbn [fst snd] in *. destruct (IHr s K32 E4) as (R1 & R2).
      destruct (frame_own h1 h2 h3 K2 E3 t o K31 E2) as (F1 & F2 & F3). split; [constructor; [now split|exact R1]|].
      cbn [krefs snd]. now rewrite F2, R2. }
  destruct R as (R1 & R2).
  split; [apply (ext_trans _ h1); [exact E1|]; now apply (ext_trans _ h2)|].
  split.
  { intros l Hl. destruct (Nat.eq_dec l (h_nn h2)) as [->|Ne].
    - rewrite Nl. cbn [o_data o_children]. split; [lia|]. eapply Forall_impl; [|exact K3]. cbn. intros; lia.
    - rewrite (ex_nodes _ _ E3) by lia. destruct (K2 l ltac:(lia)) as (X & Y). split; [lia|]. eapply Forall_impl; [|exact Y]. cbn. intros; lia. }
  split; [lia|]. split.
  - replace d with (h_dicts h3 (o_data (h_nodes h3 (h_nn h2)))).
    + constructor. rewrite Nl. exact R1.
    + rewrite Nl. cbn [o_data]. rewrite (ex_dicts _ _ E3) by lia. rewrite (ex_dicts _ _ K1) by lia. cbn. now rewrite Nat.eqb_refl.
  - rewrite drefs_node, Nl. cbn [o_data o_children]. rewrite R2. constructor; [|exact K5].
    intro I. rewrite Forall_forall in K6. specialize (K6 _ I). lia.
Qed.

(** ** reading *)
Definition rkids (lim : nat) (h : heap V) := fix each (cs : dict nat) : result (list (string * ptree V)) :=
            match cs with [] => Ok [] | (n, c) :: r => bind (hread lim h c) (fun t => fmap (cons (n, t)) (each r)) end.
Lemma hread_eq : forall lim h l, hread (S lim) h l = fmap (Node (h_dicts h (o_data (h_nodes h l)))) (rkids lim h (o_children (h_nodes h l))).
Proof. reflexivity. Qed.
Lemma hread_sound : forall lim h l T, hread lim h l = Ok T -> denotes h l T.
Proof.
  induction lim as [|lim IH]; intros h l T H; [discriminate|]. rewrite hread_eq in H.
  destruct (rkids lim h (o_children (h_nodes h l))) as [cs|] eqn:E; cbn [fmap] in H; [|discriminate]. injection H as <-. constructor.
  revert cs E. induction (o_children (h_nodes h l)) as [|[n o] r IHr]; intros cs E; cbn [rkids] in E.
  - injection E as <-. constructor.
  - destruct (hread lim h o) as [t|] eqn:Et; cbn [bind] in E; [|discriminate].
    destruct (rkids lim h r) as [ts|] eqn:Er; cbn [fmap] in E; [|discriminate]. injection E as <-.
    constructor; [split; [reflexivity|now apply IH]|now apply IHr].
Qed.
Lemma hread_complete : forall T lim h l, denotes h l T -> depth T <= lim -> hread lim h l = Ok T.
Proof.
  intro T. induction T as [d cs IH] using tree_ind2. intros lim h l H Hd. apply denotes_inv in H. destruct H as (-> & H).
  cbn [depth] in Hd. destruct lim as [|lim]; [lia|]. apply le_S_n in Hd. rewrite hread_eq.
  assert (E : rkids lim h (o_children (h_nodes h l)) = Ok cs); [|now rewrite E].
  revert cs IH H Hd. induction (o_children (h_nodes h l)) as [|[n o] r IHr]; intros cs IH H Hd; inversion H as [|? [m t] ? ? [E1 E2] E3]; subst; [reflexivity|].
  inversion IH as [|? ? I1 I2]; subst. cbn [fst snd map fold_right] in *. cbn [rkids]. rewrite (I1 lim h o E2) by lia. cbn [bind].
  rewrite (IHr _ I2 E3) by lia. now subst.
Qed.
Lemma hread_depth : forall lim h l T, hread lim h l = Ok T -> depth T <= lim.
Proof.
  induction lim as [|lim IH]; intros h l T H; [discriminate|]. rewrite hread_eq in H.
  destruct (rkids lim h (o_children (h_nodes h l))) as [cs|] eqn:E; cbn [fmap] in H; [|discriminate]. injection H as <-. cbn [depth]. apply le_n_S.
  revert cs E. induction (o_children (h_nodes h l)) as [|[n o] r IHr]; intros cs E; cbn [rkids] in E.
  - injection E as <-. cbn. lia.
  - destruct (hread lim h o) as [t|] eqn:Et; cbn [bind] in E; [|discriminate].
    destruct (rkids lim h r) as [ts|] eqn:Er; cbn [fmap] in E; [|discriminate]. injection E as <-.
    cbn [map snd fold_right]. specialize (IHr _ eq_refl). specialize (IH _ _ _ Et). lia.
Qed.

(** ** the parameters of a model as a tree *)
Fixpoint trefs (m : tree nat) : list nat := match m with Node d cs => d :: flat_map (fun kc => trefs (snd kc)) cs end.
Lemma tmap_ext : forall B (f g : nat -> B) m, Forall (fun d => f d = g d) (trefs m) -> tmap f m = tmap g m.
Proof.
  intros B f g m. induction m as [d cs IH] using tree_ind2. intro H. cbn [trefs] in H. inversion H as [|? ? H1 H2]; subst. cbn [tmap]. rewrite H1. f_equal.
  clear H H1. induction IH as [|[n t] r It Ir IHr]; [reflexivity|]. cbn [flat_map snd] in H2. apply Forall_app in H2. destruct H2 as [Ha Hb].
  cbn [map fst snd] in *. rewrite (It Ha). f_equal. now apply IHr.
Qed.
Definition gkids := fix each (ss : list (string * model)) (h : heap V) : heap V * dict nat :=
                   match ss with [] => (h, []) | (n, s) :: r => let x := hget_recursive h s in let y := each r (fst x) in (fst y, (n, snd x) :: snd y) end.
Lemma hget_eq : forall h d cs, hget_recursive h (Node d cs) = let hd := new_dict h (h_dicts h d) in let hc := gkids cs (fst hd) in new_node (fst hc) (snd hd) (snd hc).
Proof. reflexivity. Qed.
Lemma hget_build : forall m h, Forall (fun d => d < h_nd h) (trefs m) -> hget_recursive h m = hbuild h (tmap (h_dicts h) m).
Proof.
  intro m. induction m as [d cs IH] using tree_ind2. intros h H. cbn [trefs] in H. inversion H as [|? ? H1 H2]; subst.
  rewrite hget_eq. cbn [tmap]. rewrite hbuild_eq. cbv zeta. set (h1 := fst (new_dict h (h_dicts h d))).
  assert (E1 : ext h h1) by apply new_dict_ext.
  assert (K : gkids cs h1 = bkids (map (fun kc => (fst kc, tmap (h_dicts h) (snd kc))) cs) h1); [|now rewrite K].
  clear H H1. revert E1. generalize h1. clear h1. induction IH as [|[n t] r It Ir IHr]; intros h1 E1; [reflexivity|].
  cbn [flat_map snd] in H2. apply Forall_app in H2. destruct H2 as [Ha Hb]. cbn [gkids map bkids fst snd] in *. cbv zeta.
  assert (Et : tmap (h_dicts h1) t = tmap (h_dicts h) t).
  { apply tmap_ext. eapply Forall_impl; [|exact Ha]. cbn. intros a Ia. now apply (ex_dicts _ _ E1). }
  rewrite (It h1), Et.
  - destruct (hbuild_spec (tmap (h_dicts h) t) h1) as (E2 & _). rewrite (IHr Hb) by now apply (ext_trans _ h1). reflexivity.
  - eapply Forall_impl; [|exact Ha]. cbn. intros a Ia. pose proof (ex_nd _ _ E1). lia.
Qed.

(** ** setting the parameters of a model *)
Definition skids (l : nat) := fix each (ss : list (string * tree unit)) (h : heap V) : result (heap V * list (string * model)) :=
            match ss with
            | [] => Ok (h, [])
            | (n, s) :: r => bind (hget_child h n l) (fun c => bind (hset_recursive h s c) (fun x => fmap (fun y => (fst y, (n, snd x) :: snd y)) (each r (fst x))))
            end.
Lemma hset_eq : forall h u ss l, hset_recursive h (Node u ss) l = let hd := new_dict h (h_dicts h (o_data (h_nodes h l))) in
  fmap (fun hm => (fst hm, Node (snd hd) (snd hm))) (skids l ss (fst hd)).
Proof. reflexivity. Qed.
(** only new dicts *)
Record dext h h' : Prop := { dx_nn : h_nn h' = h_nn h; dx_nodes : h_nodes h' = h_nodes h; dx_nd : h_nd h <= h_nd h'; dx_dicts : forall d, d < h_nd h -> h_dicts h' d = h_dicts h d }.
Lemma dext_trans : forall h1 h2 h3, dext h1 h2 -> dext h2 h3 -> dext h1 h3.
Proof. intros h1 h2 h3 [a b c d] [a' b' c' d']. constructor; try congruence; try lia. intros x Hx. rewrite d' by lia. now apply d. Qed.
Lemma dext_ext : forall h h', dext h h' -> ext h h'.
Proof. intros h h' [a b c d]. constructor; try lia; auto. intros l _. now rewrite b. Qed.
Definition valid h : Prop := forall l, l < h_nn h -> o_data (h_nodes h l) < h_nd h /\ Forall (fun kc => snd kc < h_nn h) (o_children (h_nodes h l)).
Lemma closed_valid : forall h cn cd, closed h cn cd -> valid h.
Proof. intros h cn cd H l Hl. destruct (H l Hl) as (A & _ & B). split; [exact A|]. eapply Forall_impl; [|exact B]. cbn. tauto. Qed.
Lemma dget_In' : forall A k (d : dict A) v, dget k d = Some v -> In (k, v) d.
Proof.
  intros A k d v. induction d as [|[k' v'] r IH]; cbn [dget]; [discriminate|]. destruct (String.eqb_spec k k') as [->|].
  - intro E. injection E as ->. now left.
  - intro E. right. now apply IH.
Qed.
Lemma seen_old : forall h h' T l, dext h h' -> valid h -> l < h_nn h -> (seen h l T <-> seen h' l T).
Proof.
  intros h h' T l E Va. revert l. induction T as [d cs IH] using tree_ind2. intros l Hl. destruct (Va l Hl) as (Hd & Hk).
  split; intro H; apply seen_inv in H; destruct H as (-> & H).
  - rewrite <- (dx_dicts _ _ E _ Hd). rewrite <- (dx_nodes _ _ E). constructor. rewrite (dx_nodes _ _ E).
    rewrite Forall_forall in H, IH, Hk |- *. intros kt I. destruct (H kt I) as (c & G & S1). exists c. split; [exact G|].
    apply (IH kt I); [|exact S1]. apply (Hk _ (dget_In' _ _ _ _ G)).
  - rewrite (dx_nodes _ _ E) in *. rewrite (dx_dicts _ _ E _ Hd). constructor.
    rewrite Forall_forall in H, IH, Hk |- *. intros kt I. destruct (H kt I) as (c & G & S1). exists c. split; [exact G|].
    apply (IH kt I); [|exact S1]. apply (Hk _ (dget_In' _ _ _ _ G)).
Qed.
Lemma tmap_shape : forall A B (f : A -> B) m, shape_of (tmap f m) = shape_of m.
Proof.
  intros A B f m. induction m as [d cs IH] using tree_ind2. cbn [tmap shape_of]. f_equal. rewrite map_map.
  induction IH as [|[n t] r It Ir IHr]; [reflexivity|]. cbn [map fst snd] in *. now rewrite It, IHr.
Qed.
Lemma hset_spec : forall shape h l h' m, valid h -> l < h_nn h -> hset_recursive h shape l = Ok (h', m) ->
  dext h h' /\ Forall (fun d => h_nd h <= d < h_nd h') (trefs m) /\ shape_of m = shape /\ seen h l (tmap (h_dicts h') m).
Proof.
  intro shape. induction shape as [u ss IH] using tree_ind2. intros h l h' m Va Hl H. rewrite hset_eq in H. cbv zeta in H.
  set (h1 := fst (new_dict h (h_dicts h (o_data (h_nodes h l))))) in *.
  destruct (Va l Hl) as (Hd & Hk).
  assert (E1 : dext h h1). { constructor; cbn; auto. intros x Hx. destruct (Nat.eqb_spec x (h_nd h)); [lia|reflexivity]. }
  destruct (skids l ss h1) as [[h2 ms]|] eqn:Es; cbn [fmap] in H; [|discriminate]. cbn [fst snd] in H. injection H as <- <-.
  assert (K : dext h1 h2 /\ Forall (fun d => h_nd h1 <= d < h_nd h2) (flat_map (fun kc => trefs (snd kc)) ms) /\
    map (fun kv => (fst kv, shape_of (snd kv))) ms = ss /\
    Forall (fun kt => exists c, dget (fst kt) (o_children (h_nodes h l)) = Some c /\ seen h c (snd kt)) (map (fun kc => (fst kc, tmap (h_dicts h2) (snd kc))) ms)).
  { assert (Vh : forall h0, dext h h0 -> valid h0).
    { intros h0 D x Hx. rewrite (dx_nn _ _ D) in Hx. rewrite (dx_nodes _ _ D). destruct (Va x Hx) as (X & Y). split; [pose proof (dx_nd _ _ D); lia|].
      now rewrite (dx_nn _ _ D). }
    clear Hd. revert E1 ms Es. generalize h1. clear h1. induction IH as [|[n s] r It Ir IHr]; intros h1 E1 ms Es; cbn [skids] in Es.
    - injection Es as <- <-. split; [now constructor|]. repeat split; constructor.
    - unfold hget_child, lookup_err in Es. rewrite (dx_nodes _ _ E1) in Es. destruct (dget n (o_children (h_nodes h l))) as [c|] eqn:Ec; cbn [bind] in Es; [|discriminate].
      destruct (hset_recursive h1 s c) as [[h3 m3]|] eqn:E3; cbn [bind fst snd] in Es; [|discriminate].
      destruct (skids l r h3) as [[h4 m4]|] eqn:E4; cbn [fmap fst snd] in Es; [|discriminate]. injection Es as <- <-.
      assert (Hc : c < h_nn h) by (rewrite Forall_forall in Hk; apply (Hk _ (dget_In' _ _ _ _ Ec))).
      cbn [snd] in It. destruct (It h1 c h3 m3 (Vh _ E1)) as (A1 & A2 & A3 & A4); [rewrite (dx_nn _ _ E1); exact Hc|exact E3|].
      assert (E13 : dext h h3) by now apply (dext_trans _ h1).
      destruct (IHr h3 E13 m4 E4) as (B1 & B2 & B3 & B4).
      pose proof (dx_nd _ _ A1). pose proof (dx_nd _ _ B1).
      split; [now apply (dext_trans _ h3)|]. split.
      + cbn [flat_map snd]. apply Forall_app. split; [eapply Forall_impl; [|exact A2]|eapply Forall_impl; [|exact B2]]; cbn; intros; lia.
      + split; [cbn [map fst snd]; now rewrite A3, B3|]. cbn [map fst snd]. constructor; [|exact B4].
        exists c. cbn [fst snd]. split; [exact Ec|]. apply (seen_old h h1); [exact E1|exact Va|exact Hc|].
        rewrite (tmap_ext _ (h_dicts h4) (h_dicts h3) m3); [exact A4|]. eapply Forall_impl; [|exact A2]. cbn. intros a Ia. apply (dx_dicts _ _ B1). lia. }
  destruct K as (K1 & K2 & K3 & K4). pose proof (dx_nd _ _ K1). assert (h_nd h1 = S (h_nd h)) by reflexivity.
  split; [now apply (dext_trans _ h1)|]. split; [|split].
  - cbn [trefs]. constructor; [cbn; lia|]. eapply Forall_impl; [|exact K2]. cbn. intros; lia.
  - cbn [shape_of]. destruct u. now rewrite K3.
  - cbn [tmap]. cbn [new_dict snd]. replace (h_dicts h2 (h_nd h)) with (h_dicts h (o_data (h_nodes h l))).
    + now constructor.
    + rewrite (dx_dicts _ _ K1) by lia. cbn. now rewrite Nat.eqb_refl.
Qed.
(** it goes through when the tree has the nodes *)
Lemma hset_total : forall shape h l T, valid h -> l < h_nn h -> seen h l T -> shape_of T = shape -> exists x, hset_recursive h shape l = Ok x.
Proof.
  intro shape. induction shape as [u ss IH] using tree_ind2. intros h l [d cs] Va Hl Hs Sh. rewrite hset_eq. cbv zeta.
  apply seen_inv in Hs. destruct Hs as (-> & Hs). cbn [shape_of] in Sh. injection Sh as _ <-.
  set (h1 := fst (new_dict h (h_dicts h (o_data (h_nodes h l))))).
  assert (E1 : dext h h1). { constructor; cbn; auto. intros x Hx. destruct (Nat.eqb_spec x (h_nd h)); [lia|reflexivity]. }
  assert (Vh : forall h0, dext h h0 -> valid h0).
  { intros h0 D x Hx. rewrite (dx_nn _ _ D) in Hx. rewrite (dx_nodes _ _ D). destruct (Va x Hx) as (X & Y). split; [pose proof (dx_nd _ _ D); lia|].
    now rewrite (dx_nn _ _ D). }
  assert (K : exists y, skids l (map (fun kv => (fst kv, shape_of (snd kv))) cs) h1 = Ok y); [|destruct K as (y & ->); eexists; reflexivity].
  destruct (Va l Hl) as (_ & Hk).
  revert E1. generalize h1. clear h1. induction Hs as [|[n t] r (c & Ec & Sc) Hr IHr]; intros h1 E1; [eexists; reflexivity|].
  inversion IH as [|? ? I1 I2]; subst. cbn [map fst snd skids] in *. unfold hget_child, lookup_err. rewrite (dx_nodes _ _ E1), Ec. cbn [bind].
  assert (Hc : c < h_nn h) by (rewrite Forall_forall in Hk; apply (Hk _ (dget_In' _ _ _ _ Ec))).
  assert (Hc1 : c < h_nn h1) by (rewrite (dx_nn _ _ E1); exact Hc).
  destruct (I1 h1 c t (Vh _ E1) Hc1) as ([h2 m2] & Ex); [now apply (seen_old h h1)|reflexivity|].
  rewrite Ex. cbn [bind fst snd]. destruct (hset_spec _ _ _ _ _ (Vh _ E1) Hc1 Ex) as (D & _).
  destruct (IHr I2 h2) as (y & Ey); [now apply (dext_trans _ h1)|]. rewrite Ey. eexists; reflexivity.
Qed.
End P.
