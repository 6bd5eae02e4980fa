(** C69: the relation between the world of objects and the world of values. *)
From Verif Require Import Base RBase NlpModel AliasModel AliasSpec.
From Coq Require Import Lia.
Open Scope nat_scope.

Lemma put_same : forall A (f : nat -> A) i x, put f i x i = x.
Proof. intros. unfold put. now rewrite Nat.eqb_refl. Qed.
Lemma put_other : forall A (f : nat -> A) i j x, j <> i -> put f i x j = f j.
Proof. intros. unfold put. destruct (Nat.eqb_spec j i); congruence. Qed.

Definition scl (w : world) (k : nat) : nat := hp_scales (w_prob w k).
Definition refs (d : dict nat) : list nat := map snd d.
(** an array that only [o] may write to: not the array of scales of another problem, not an array that the user may still write to *)
Definition safe (w : world) (S : list nat) (o : option nat) (a : nat) : Prop :=
  a < w_na w /\ (forall k, k < w_np w -> o <> Some k -> a <> scl w k) /\ (forall u, u < w_nu w -> ~ In u S -> a <> w_user w u).

Record sep (A B S : list nat) (w : world) : Prop := {
  s_user : forall u, u < w_nu w -> w_user w u < w_na w;
  s_uinj : forall u u', u < w_nu w -> u' < w_nu w -> w_user w u = w_user w u' -> u = u';
  s_scl : forall k, k < w_np w -> scl w k < w_na w;
  s_sclu : forall k u, k < w_np w -> u < w_nu w -> w_user w u <> scl w k;
  s_sinj : forall k q, k < w_np w -> q < w_np w -> scl w k = scl w q -> k = q;
  s_A : forall i, In i A -> i < w_nc w;
  s_B : forall i, In i B -> i < w_no w;
  s_con : forall i, i < w_nc w -> ~ In i A -> safe w S None (hc_in (w_con w i)) /\ safe w S None (hc_con (w_con w i));
  s_obj : forall i, i < w_no w -> ~ In i B -> safe w S None (ho_in (w_obj w i));
  s_pc : forall k i, k < w_np w -> In i (refs (hp_cons (w_prob w k))) ->
    In i A /\ safe w S (Some k) (hc_in (w_con w i)) /\ safe w S None (hc_con (w_con w i));
  s_po : forall k i, k < w_np w -> In i (refs (hp_objs (w_prob w k))) -> In i B /\ safe w S (Some k) (ho_in (w_obj w i));
  s_ndc : forall k, k < w_np w -> NoDup (refs (hp_cons (w_prob w k)));
  s_ndo : forall k, k < w_np w -> NoDup (refs (hp_objs (w_prob w k)));
  s_dc : forall k q i, k < w_np w -> q < w_np w -> In i (refs (hp_cons (w_prob w k))) -> In i (refs (hp_cons (w_prob w q))) -> k = q;
  s_do : forall k q i, k < w_np w -> q < w_np w -> In i (refs (hp_objs (w_prob w k))) -> In i (refs (hp_objs (w_prob w q))) -> k = q }.

Record agree (A B : list nat) (w : world) (v : values) : Prop := {
  a_nu : length (v_arr v) = w_nu w; a_nc : length (v_con v) = w_nc w; a_no : length (v_obj v) = w_no w; a_np : length (v_prob v) = w_np w;
  a_user : forall u, u < w_nu w -> nth_error (v_arr v) u = Some (w_arr w (w_user w u));
  a_con : forall i, i < w_nc w -> ~ In i A -> nth_error (v_con v) i = Some (view_con w (w_con w i));
  a_obj : forall i, i < w_no w -> ~ In i B -> nth_error (v_obj v) i = Some (view_obj w (w_obj w i));
  a_prob : forall k, k < w_np w -> nth_error (v_prob v) k = Some (view_prob w (w_prob w k)) }.

(** ** Views *)
Lemma view_con_ext : forall w w' c, w_arr w' (hc_in c) = w_arr w (hc_in c) -> w_arr w' (hc_con c) = w_arr w (hc_con c) -> view_con w' c = view_con w c.
Proof. intros w w' c H1 H2. unfold view_con. now rewrite H1, H2. Qed.
Lemma view_obj_ext : forall w w' o, w_arr w' (ho_in o) = w_arr w (ho_in o) -> view_obj w' o = view_obj w o.
Proof. intros w w' o H1. unfold view_obj. now rewrite H1. Qed.
Lemma view_prob_ext : forall w w' p,
  w_arr w' (hp_scales p) = w_arr w (hp_scales p) ->
  (forall i, In i (refs (hp_cons p)) -> view_con w' (w_con w' i) = view_con w (w_con w i)) ->
  (forall i, In i (refs (hp_objs p)) -> view_obj w' (w_obj w' i) = view_obj w (w_obj w i)) -> view_prob w' p = view_prob w p.
Proof.
  intros w w' p Hs Hc Ho. unfold view_prob. rewrite Hs. f_equal; apply map_ext_in; intros [n i] Hi; cbn [fst snd]; f_equal; [apply Hc|apply Ho];
    unfold refs; apply in_map_iff; now exists (n, i).
Qed.

(** ** Lists of values *)
Lemma replace_length : forall A (l : list A) i x, length (replace l i x) = length l.
Proof. intros A l; induction l as [|y r IH]; intros [|i] x; cbn; auto. Qed.
Lemma replace_same : forall A (l : list A) i x, i < length l -> nth_error (replace l i x) i = Some x.
Proof. intros A l; induction l as [|y r IH]; intros [|i] x H; cbn in *; try lia; [reflexivity|]. apply IH. lia. Qed.
Lemma replace_other : forall A (l : list A) i j x, j <> i -> nth_error (replace l i x) j = nth_error l j.
Proof. intros A l; induction l as [|y r IH]; intros [|i] [|j] x H; cbn; try reflexivity; try congruence. apply IH. congruence. Qed.
Lemma pick_some : forall A (l : list A) i x, nth_error l i = Some x -> pick l i = Ok x.
Proof. intros A l i x H. unfold pick. now rewrite H. Qed.
Lemma pick_none : forall A (l : list A) i, length l <= i -> pick l i = Raise NameError.
Proof. intros A l i H. unfold pick. now rewrite (proj2 (nth_error_None l i) H). Qed.

(** ** A call that works on problem [k] *)
Record footprint (A' B' : list nat) (k : nat) (w w' : world) : Prop := {
  f_nu : w_nu w' = w_nu w; f_user : w_user w' = w_user w; f_nc : w_nc w' = w_nc w; f_no : w_no w' = w_no w; f_np : w_np w' = w_np w; f_na : w_na w <= w_na w';
  f_prob : forall q, q <> k -> w_prob w' q = w_prob w q;
  f_scl : scl w' k = scl w k \/ w_na w <= scl w' k < w_na w';
  f_arr : forall a, a < w_na w -> a <> scl w k -> w_arr w' a = w_arr w a;
  f_con : forall i, i < w_nc w -> ~ In i A' -> w_con w' i = w_con w i;
  f_con' : forall q i, q < w_np w -> q <> k -> In i (refs (hp_cons (w_prob w q))) -> w_con w' i = w_con w i;
  f_obj : forall i, i < w_no w -> ~ In i B' -> w_obj w' i = w_obj w i;
  f_obj' : forall q i, q < w_np w -> q <> k -> In i (refs (hp_objs (w_prob w q))) -> w_obj w' i = w_obj w i }.

Section StepProb.
Variables (A B S A' B' S' : list nat) (k : nat) (w w' : world).
Hypothesis Hsep : sep A B S w.
Hypothesis Hk : k < w_np w.
Hypothesis Hf : footprint A' B' k w w'.
Hypothesis HA : incl A A'.
Hypothesis HB : incl B B'.
Hypothesis HS : incl S S'.
Hypothesis HA' : forall i, In i A' -> i < w_nc w.
Hypothesis HB' : forall i, In i B' -> i < w_no w.
Hypothesis Hc : forall i, In i (refs (hp_cons (w_prob w' k))) ->
  In i A' /\ (In i (refs (hp_cons (w_prob w k))) \/ ~ In i A) /\ safe w' S' (Some k) (hc_in (w_con w' i)) /\ safe w' S' None (hc_con (w_con w' i)).
Hypothesis Ho : forall i, In i (refs (hp_objs (w_prob w' k))) ->
  In i B' /\ (In i (refs (hp_objs (w_prob w k))) \/ ~ In i B) /\ safe w' S' (Some k) (ho_in (w_obj w' i)).
Hypothesis Hndc : NoDup (refs (hp_cons (w_prob w' k))).
Hypothesis Hndo : NoDup (refs (hp_objs (w_prob w' k))).

Lemma scl_other : forall q, q <> k -> scl w' q = scl w q.
Proof. intros q Hq. unfold scl. now rewrite (f_prob _ _ _ _ _ Hf) by exact Hq. Qed.

Lemma safe_step : forall o a, safe w S o a -> safe w' S' o a.
Proof.
  intros o a (H1 & H2 & H3). pose proof (f_na _ _ _ _ _ Hf). split; [lia|]. split.
  - intros q Hq Ho'. rewrite (f_np _ _ _ _ _ Hf) in Hq. destruct (Nat.eq_dec q k) as [->|Hn].
    + destruct (f_scl _ _ _ _ _ Hf) as [E|E]; [rewrite E; now apply H2|lia].
    + rewrite scl_other by exact Hn. now apply H2.
  - intros u Hu Hi. rewrite (f_nu _ _ _ _ _ Hf) in Hu. rewrite (f_user _ _ _ _ _ Hf). apply H3; [exact Hu|]. intros Hx. apply Hi, HS, Hx.
Qed.

Lemma sep_step : sep A' B' S' w'.
Proof.
  pose proof (f_na _ _ _ _ _ Hf) as Hna. pose proof (f_nu _ _ _ _ _ Hf) as Hnu. pose proof (f_np _ _ _ _ _ Hf) as Hnp.
  pose proof (f_nc _ _ _ _ _ Hf) as Hnc. pose proof (f_no _ _ _ _ _ Hf) as Hno.
  assert (Hcase : forall q, q < w_np w -> (q <> k /\ scl w' q = scl w q) \/ (q = k /\ (scl w' q = scl w q \/ w_na w <= scl w' q < w_na w'))).
  { intros q Hq. destruct (Nat.eq_dec q k) as [->|Hn]; [right|left]; (split; [auto|]); [apply (f_scl _ _ _ _ _ Hf)|now apply scl_other]. }
  constructor.
  - intros u Hu. rewrite (f_user _ _ _ _ _ Hf). rewrite Hnu in Hu. pose proof (s_user _ _ _ _ Hsep u Hu). lia.
  - rewrite Hnu, (f_user _ _ _ _ _ Hf). apply (s_uinj _ _ _ _ Hsep).
  - rewrite Hnp. intros q Hq. pose proof (s_scl _ _ _ _ Hsep q Hq). destruct (Hcase q Hq) as [[_ ->]|[_ [->|?]]]; lia.
  - rewrite Hnp, Hnu, (f_user _ _ _ _ _ Hf). intros q u Hq Hu. pose proof (s_user _ _ _ _ Hsep u Hu). pose proof (s_sclu _ _ _ _ Hsep q u Hq Hu).
    destruct (Hcase q Hq) as [[_ ->]|[_ [->|?]]]; [assumption|assumption|lia].
  - rewrite Hnp. intros q r Hq Hr E. pose proof (s_scl _ _ _ _ Hsep q Hq). pose proof (s_scl _ _ _ _ Hsep r Hr).
    destruct (Hcase q Hq) as [[Nq Eq]|[-> Eq]]; destruct (Hcase r Hr) as [[Nr Er]|[-> Er]]; try reflexivity.
    + apply (s_sinj _ _ _ _ Hsep); congruence.
    + destruct Er as [Er|Er]; [|lia]. apply (s_sinj _ _ _ _ Hsep); congruence.
    + destruct Eq as [Eq|Eq]; [|lia]. apply (s_sinj _ _ _ _ Hsep); congruence.
  - rewrite Hnc. exact HA'.
  - rewrite Hno. exact HB'.
  - rewrite Hnc. intros i Hi Hn. rewrite (f_con _ _ _ _ _ Hf) by assumption. destruct (s_con _ _ _ _ Hsep i Hi) as [? ?]; [auto|]. split; now apply safe_step.
  - rewrite Hno. intros i Hi Hn. rewrite (f_obj _ _ _ _ _ Hf) by assumption. apply safe_step, (s_obj _ _ _ _ Hsep); auto.
  - rewrite Hnp. intros q i Hq Hi. destruct (Nat.eq_dec q k) as [->|Hn]; [destruct (Hc i Hi) as (? & _ & ?); tauto|].
    rewrite (f_prob _ _ _ _ _ Hf) in Hi by exact Hn. destruct (s_pc _ _ _ _ Hsep q i Hq Hi) as (? & ? & ?).
    rewrite (f_con' _ _ _ _ _ Hf q) by assumption. split; [auto|]. split; now apply safe_step.
  - rewrite Hnp. intros q i Hq Hi. destruct (Nat.eq_dec q k) as [->|Hn]; [destruct (Ho i Hi) as (? & _ & ?); tauto|].
    rewrite (f_prob _ _ _ _ _ Hf) in Hi by exact Hn. destruct (s_po _ _ _ _ Hsep q i Hq Hi) as (? & ?).
    rewrite (f_obj' _ _ _ _ _ Hf q) by assumption. split; [auto|]. now apply safe_step.
  - rewrite Hnp. intros q Hq. destruct (Nat.eq_dec q k) as [->|Hn]; [exact Hndc|]. rewrite (f_prob _ _ _ _ _ Hf) by exact Hn. now apply (s_ndc _ _ _ _ Hsep).
  - rewrite Hnp. intros q Hq. destruct (Nat.eq_dec q k) as [->|Hn]; [exact Hndo|]. rewrite (f_prob _ _ _ _ _ Hf) by exact Hn. now apply (s_ndo _ _ _ _ Hsep).
  - rewrite Hnp. intros q r i Hq Hr Iq Ir. destruct (Nat.eq_dec q k) as [->|Nq]; destruct (Nat.eq_dec r k) as [->|Nr]; try reflexivity;
      rewrite ?(f_prob _ _ _ _ _ Hf) in Iq by assumption; rewrite ?(f_prob _ _ _ _ _ Hf) in Ir by assumption.
    + destruct (Hc i Iq) as (_ & [I|I] & _); [now apply (s_dc _ _ _ _ Hsep k r i)|]. exfalso. apply I. now apply (s_pc _ _ _ _ Hsep r i).
    + destruct (Hc i Ir) as (_ & [I|I] & _); [now apply (s_dc _ _ _ _ Hsep q k i)|]. exfalso. apply I. now apply (s_pc _ _ _ _ Hsep q i).
    + now apply (s_dc _ _ _ _ Hsep q r i).
  - rewrite Hnp. intros q r i Hq Hr Iq Ir. destruct (Nat.eq_dec q k) as [->|Nq]; destruct (Nat.eq_dec r k) as [->|Nr]; try reflexivity;
      rewrite ?(f_prob _ _ _ _ _ Hf) in Iq by assumption; rewrite ?(f_prob _ _ _ _ _ Hf) in Ir by assumption.
    + destruct (Ho i Iq) as (_ & [I|I] & _); [now apply (s_do _ _ _ _ Hsep k r i)|]. exfalso. apply I. now apply (s_po _ _ _ _ Hsep r i).
    + destruct (Ho i Ir) as (_ & [I|I] & _); [now apply (s_do _ _ _ _ Hsep q k i)|]. exfalso. apply I. now apply (s_po _ _ _ _ Hsep q i).
    + now apply (s_do _ _ _ _ Hsep q r i).
Qed.

Lemma arr_keep : forall o a, o <> Some k -> safe w S o a -> w_arr w' a = w_arr w a.
Proof. intros o a Hn (H1 & H2 & _). apply (f_arr _ _ _ _ _ Hf); [exact H1|]. now apply H2. Qed.

Lemma agree_step : forall v, agree A B w v ->
  agree A' B' w' {| v_arr := v_arr v; v_con := v_con v; v_obj := v_obj v; v_prob := replace (v_prob v) k (view_prob w' (w_prob w' k)) |}.
Proof.
  intros v Ha. pose proof (f_nu _ _ _ _ _ Hf) as Hnu. pose proof (f_np _ _ _ _ _ Hf) as Hnp. pose proof (f_nc _ _ _ _ _ Hf) as Hnc. pose proof (f_no _ _ _ _ _ Hf) as Hno.
  constructor; cbn [v_arr v_con v_obj v_prob].
  - rewrite Hnu. apply Ha.
  - rewrite Hnc. apply Ha.
  - rewrite Hno. apply Ha.
  - rewrite Hnp, replace_length. apply Ha.
  - rewrite Hnu, (f_user _ _ _ _ _ Hf). intros u Hu. rewrite (a_user _ _ _ _ Ha u Hu). f_equal. symmetry.
    apply (f_arr _ _ _ _ _ Hf); [now apply (s_user _ _ _ _ Hsep)|now apply (s_sclu _ _ _ _ Hsep)].
  - rewrite Hnc. intros i Hi Hn. rewrite (a_con _ _ _ _ Ha i Hi) by auto. f_equal. rewrite (f_con _ _ _ _ _ Hf) by assumption. symmetry.
    destruct (s_con _ _ _ _ Hsep i Hi) as [S1 S2]; [auto|]. apply view_con_ext; eapply arr_keep; try eassumption; discriminate.
  - rewrite Hno. intros i Hi Hn. rewrite (a_obj _ _ _ _ Ha i Hi) by auto. f_equal. rewrite (f_obj _ _ _ _ _ Hf) by assumption. symmetry.
    apply view_obj_ext. apply (arr_keep None); [discriminate|]. apply (s_obj _ _ _ _ Hsep); auto.
  - rewrite Hnp. intros q Hq. destruct (Nat.eq_dec q k) as [->|Hn].
    + apply replace_same. rewrite (a_np _ _ _ _ Ha). exact Hk.
    + rewrite replace_other by exact Hn. rewrite (a_prob _ _ _ _ Ha q Hq). f_equal. rewrite (f_prob _ _ _ _ _ Hf) by exact Hn. symmetry. apply view_prob_ext.
      * apply (f_arr _ _ _ _ _ Hf); [now apply (s_scl _ _ _ _ Hsep)|]. intros E. apply Hn. now apply (s_sinj _ _ _ _ Hsep).
      * intros i Hi. rewrite (f_con' _ _ _ _ _ Hf q) by assumption. destruct (s_pc _ _ _ _ Hsep q i Hq Hi) as (_ & S1 & S2).
        apply view_con_ext; eapply arr_keep; try eassumption; try discriminate. congruence.
      * intros i Hi. rewrite (f_obj' _ _ _ _ _ Hf q) by assumption. destruct (s_po _ _ _ _ Hsep q i Hq Hi) as (_ & S1).
        apply view_obj_ext; eapply arr_keep; try eassumption. congruence.
Qed.
End StepProb.
