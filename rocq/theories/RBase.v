(** Real vectors, sparse matrices in triplet form, partial derivatives.
    Vocabulary shared by the numerical parts of the model; nothing here is lumos code. *)
From Verif Require Export Base.
From Coq Require Export Reals Lra.
Open Scope R_scope.
Open Scope list_scope.

(** ** Vectors *)
Fixpoint map2 {A B C} (f : A -> B -> C) (l : list A) (m : list B) : list C :=
  match l, m with a :: r, b :: s => f a b :: map2 f r s | _, _ => [] end.

(** elementwise numpy operations on arrays of equal length *)
Definition vmul : list R -> list R -> list R := map2 Rmult.
Definition vdiv : list R -> list R -> list R := map2 Rdiv.
Definition vadd : list R -> list R -> list R := map2 Rplus.
Definition vsub : list R -> list R -> list R := map2 Rminus.
Definition vscale (c : R) : list R -> list R := map (Rmult c).
Definition ones (n : nat) : list R := repeat 1 n.
Definition zeros (n : nat) : list R := repeat 0 n.

Fixpoint rsum (l : list R) : R := match l with [] => 0 | a :: r => a + rsum r end.
Definition vdot (a b : list R) : R := rsum (vmul a b).

(** component access used in specifications (0 outside) *)
Definition vget (i : nat) (x : list R) : R := nth i x 0.

(** [x] with component [j] replaced by [v] *)
Fixpoint upd {A} (j : nat) (v : A) (x : list A) : list A :=
  match x, j with
  | [], _ => []
  | _ :: r, O => v :: r
  | a :: r, S j' => a :: upd j' v r
  end.

(** numpy integer-array indexing [a[idx]]: IndexError when an index is out of range *)
Definition gather {A} (a : list A) (idx : list nat) : result (list A) :=
  mapM (fun i => match nth_error a i with Some v => Ok v | None => Raise IndexError end) idx.

(** numpy boolean-mask indexing [a[mask]] *)
Fixpoint maskl {A} (l : list A) (b : list bool) : list A :=
  match l, b with
  | a :: r, true :: s => a :: maskl r s
  | _ :: r, false :: s => maskl r s
  | _, _ => []
  end.
Definition mask {A} (l : list A) (b : list bool) : result (list A) :=
  if Nat.eqb (List.length l) (List.length b) then Ok (maskl l b) else Raise IndexError.

(** ** Sparse triplets.  [tri rows cols vals i j] is entry (i,j) of the matrix they describe:
    entries with equal position add up (scipy csc_matrix / IPOPT convention). *)
Fixpoint tri (rows cols : list nat) (vals : list R) (i j : nat) : R :=
  match rows, cols, vals with
  | r :: rs, c :: cs, v :: vs =>
      (if (Nat.eqb r i && Nat.eqb c j)%bool then v else 0) + tri rs cs vs i j
  | _, _, _ => 0
  end.

(** ** Derivatives *)
(** [pderiv f x j d]: the partial derivative of [f] at [x] in component [j] is [d] *)
Definition pderiv (f : list R -> R) (x : list R) (j : nat) (d : R) : Prop :=
  derivable_pt_lim (fun t => f (upd j t x)) (vget j x) d.

(** [jac_of n m f J]: for every input of length n, J x i j is the derivative of component i of f
    in input j *)
Definition is_jacobian (n m : nat) (f : list R -> list R) (J : list R -> nat -> nat -> R) : Prop :=
  forall x i j, List.length x = n -> (i < m)%nat -> (j < n)%nat ->
    pderiv (fun y => vget i (f y)) x j (J x i j).

Definition is_gradient (n : nat) (f : list R -> R) (g : list R -> nat -> R) : Prop :=
  forall x j, List.length x = n -> (j < n)%nat -> pderiv f x j (g x j).

(** second derivatives: [H] is the jacobian of some gradient of [f] *)
Definition is_hessian (n : nat) (f : list R -> R) (H : list R -> nat -> nat -> R) : Prop :=
  exists g : list R -> nat -> R, is_gradient n f g /\
    forall x j k, List.length x = n -> (j < n)%nat -> (k < n)%nat ->
      pderiv (fun y => g y j) x k (H x j k).

(** ** Lemmas *)
Lemma map2_length : forall A B C (f : A -> B -> C) l m, List.length l = List.length m ->
  List.length (map2 f l m) = List.length l.
Proof. intros A B C f l; induction l as [|a r IH]; intros [|b s] H; simpl in *; try discriminate; auto. Qed.

Lemma map2_nth : forall A B C (f : A -> B -> C) l m i a b c, List.length l = List.length m -> (i < List.length l)%nat ->
  nth i (map2 f l m) c = f (nth i l a) (nth i m b).
Proof.
  intros A B C f l; induction l as [|x r IH]; intros [|y s] i a b c H Hi; simpl in *; try discriminate; try lia.
  destruct i; [reflexivity|]. apply IH; lia.
Qed.

Lemma vmul_length : forall a b, List.length a = List.length b -> List.length (vmul a b) = List.length a.
Proof. intros. now apply map2_length. Qed.
Lemma vdiv_length : forall a b, List.length a = List.length b -> List.length (vdiv a b) = List.length a.
Proof. intros. now apply map2_length. Qed.
Lemma vget_vmul : forall a b i, List.length a = List.length b -> vget i (vmul a b) = vget i a * vget i b.
Proof.
  intros a b i H. unfold vget. destruct (Nat.lt_ge_cases i (List.length a)) as [Hi|Hi].
  - unfold vmul. now apply map2_nth.
  - rewrite !nth_overflow; try lia; [lra | rewrite vmul_length; lia].
Qed.
Lemma vget_vdiv : forall a b i, List.length a = List.length b -> (i < List.length a)%nat ->
  vget i (vdiv a b) = vget i a / vget i b.
Proof. intros. unfold vget, vdiv. now apply map2_nth. Qed.

Lemma upd_length : forall A j (v : A) x, List.length (upd j v x) = List.length x.
Proof. intros A j v x; revert j; induction x; intros [|j]; simpl; auto. Qed.

Lemma upd_nth : forall A j (v d : A) x i, nth i (upd j v x) d = if Nat.eqb i j then (if Nat.ltb j (List.length x) then v else d) else nth i x d.
Proof.
  intros A j v d x; revert j; induction x as [|a r IH]; intros j i.
  - simpl. destruct i, j; simpl; auto. destruct (Nat.eqb i j); auto.
  - destruct j, i; simpl; auto. rewrite IH. reflexivity.
Qed.

Lemma vget_upd_same : forall j v x, (j < List.length x)%nat -> vget j (upd j v x) = v.
Proof. intros. unfold vget. rewrite upd_nth, Nat.eqb_refl. apply Nat.ltb_lt in H. now rewrite H. Qed.
Lemma vget_upd_other : forall i j v x, i <> j -> vget i (upd j v x) = vget i x.
Proof. intros. unfold vget. rewrite upd_nth. apply Nat.eqb_neq in H. now rewrite H. Qed.

Lemma upd_self : forall x j, upd j (vget j x) x = x.
Proof. intros x; induction x as [|a r IH]; intros [|j]; simpl; auto. f_equal. apply IH. Qed.

Lemma upd_upd : forall A j (v w : A) x, upd j v (upd j w x) = upd j v x.
Proof. intros A j v w x; revert j; induction x; intros [|j]; simpl; auto. now f_equal. Qed.

Lemma vmul_upd : forall x s j v, List.length x = List.length s ->
  vmul (upd j v x) s = upd j (v * vget j s) (vmul x s).
Proof.
  intros x; induction x as [|a r IH]; intros [|b s] j v H; simpl in H; try discriminate; [now destruct j|].
  destruct j; [reflexivity|]. unfold vmul, vget in *. simpl. f_equal. apply IH. lia.
Qed.

Lemma vec_ext : forall (a b : list R), List.length a = List.length b ->
  (forall i, (i < List.length a)%nat -> vget i a = vget i b) -> a = b.
Proof.
  intros a; induction a as [|x r IH]; intros [|y s] H E; simpl in *; try discriminate; [reflexivity|].
  f_equal; [apply (E 0%nat); lia|]. apply IH; [lia|]. intros i Hi. apply (E (S i)). lia.
Qed.

Lemma rsum_app : forall a b, rsum (a ++ b) = rsum a + rsum b.
Proof. intros a b; induction a; simpl; [lra|]. rewrite IHa. lra. Qed.

Lemma rsum_scale : forall c l, rsum (map (Rmult c) l) = c * rsum l.
Proof. intros c l; induction l; simpl; [lra|]. rewrite IHl. lra. Qed.

Lemma vmul_ones : forall x, vmul x (ones (List.length x)) = x.
Proof. unfold vmul, vdiv, ones. intros x; induction x; simpl; [reflexivity|]. rewrite IHx. f_equal. field. Qed.
Lemma vdiv_ones : forall x, vdiv x (ones (List.length x)) = x.
Proof. unfold vmul, vdiv, ones. intros x; induction x; simpl; [reflexivity|]. rewrite IHx. f_equal. field. Qed.

Lemma vmul_vdiv : forall a s, List.length a = List.length s -> Forall (fun v => v <> 0) s -> vmul (vdiv a s) s = a.
Proof.
  unfold vmul, vdiv. intros a; induction a as [|x r IH]; intros [|y s] H Hs; simpl in *; try discriminate; [reflexivity|].
  inversion Hs; subst. rewrite IH; [|lia|assumption]. f_equal. field. assumption.
Qed.
Lemma vdiv_vmul : forall a s, List.length a = List.length s -> Forall (fun v => v <> 0) s -> vdiv (vmul a s) s = a.
Proof.
  unfold vmul, vdiv. intros a; induction a as [|x r IH]; intros [|y s] H Hs; simpl in *; try discriminate; [reflexivity|].
  inversion Hs; subst. rewrite IH; [|lia|assumption]. f_equal. field. assumption.
Qed.

Lemma Forall_vget : forall (P : R -> Prop) s i, Forall P s -> (i < List.length s)%nat -> P (vget i s).
Proof. intros P s i H Hi. rewrite Forall_forall in H. apply H. apply nth_In. assumption. Qed.

Lemma gather_ok : forall A (a : list A) idx d, Forall (fun i => (i < List.length a)%nat) idx ->
  gather a idx = Ok (map (fun i => nth i a d) idx).
Proof.
  intros A a idx d H; induction H as [|i r Hi _ IH]; simpl; [reflexivity|].
  unfold gather in *. simpl. rewrite (nth_error_nth' a d Hi). now rewrite IH.
Qed.

Lemma gather_ok_inv : forall A (a : list A) idx v, gather a idx = Ok v -> Forall (fun i => (i < List.length a)%nat) idx.
Proof.
  intros A a idx; induction idx as [|i r IH]; intros v H; [constructor|]. unfold gather in H. simpl in H.
  destruct (nth_error a i) eqn:E; [|discriminate]. fold (gather a r) in H.
  destruct (gather a r) eqn:Er; [|discriminate]. constructor; [|eapply IH; eauto].
  apply nth_error_Some. congruence.
Qed.

Lemma tri_app : forall r1 c1 v1 r2 c2 v2 i j, List.length r1 = List.length c1 -> List.length r1 = List.length v1 ->
  tri (r1 ++ r2) (c1 ++ c2) (v1 ++ v2) i j = tri r1 c1 v1 i j + tri r2 c2 v2 i j.
Proof.
  intros r1; induction r1 as [|r rs IH]; intros [|c cs] [|v vs] r2 c2 v2 i j H1 H2; simpl in *; try discriminate; [lra|].
  rewrite IH by lia. lra.
Qed.

Lemma tri_shift_rows : forall o rs cs vs i j,
  tri (map (fun r => (r + o)%nat) rs) cs vs i j = if Nat.leb o i then tri rs cs vs (i - o) j else 0.
Proof.
  intros o rs; induction rs as [|r rs IH]; intros [|c cs] [|v vs] i j; simpl; try (destruct (Nat.leb o i); reflexivity).
  rewrite IH. destruct (Nat.leb_spec o i).
  - destruct (Nat.eqb_spec (r + o) i); destruct (Nat.eqb_spec r (i - o)); try lia; reflexivity.
  - destruct (Nat.eqb_spec (r + o) i); [lia|]. simpl. lra.
Qed.

Lemma tri_zero_row : forall rs cs vs i j, Forall (fun r => r <> i) rs -> tri rs cs vs i j = 0.
Proof.
  intros rs; induction rs as [|r rs IH]; intros [|c cs] [|v vs] i j H; simpl; auto.
  inversion H; subst. rewrite IH by assumption. apply Nat.eqb_neq in H2. rewrite H2. simpl. lra.
Qed.

Lemma tri_zero_col : forall rs cs vs i j, Forall (fun c => c <> j) cs -> tri rs cs vs i j = 0.
Proof.
  intros rs; induction rs as [|r rs IH]; intros [|c cs] [|v vs] i j H; simpl; auto.
  inversion H; subst. rewrite IH by assumption. apply Nat.eqb_neq in H2. rewrite H2, andb_false_r. lra.
Qed.

(** a matrix scaled entrywise by a function of the position *)
Lemma tri_scaled : forall (s : nat -> nat -> R) rs cs vs i j, List.length rs = List.length cs -> List.length rs = List.length vs ->
  tri rs cs (map2 Rmult vs (map2 s rs cs)) i j = tri rs cs vs i j * s i j.
Proof.
  intros s rs; induction rs as [|r rs IH]; intros [|c cs] [|v vs] i j H1 H2; simpl in *; try discriminate; [lra|].
  rewrite IH by lia. destruct (Nat.eqb_spec r i), (Nat.eqb_spec c j); subst; simpl; lra.
Qed.

Lemma tri_const_scale : forall k rs cs vs i j, tri rs cs (map (Rmult k) vs) i j = k * tri rs cs vs i j.
Proof.
  intros k rs; induction rs as [|r rs IH]; intros [|c cs] [|v vs] i j; simpl; try lra.
  rewrite IH. destruct (Nat.eqb r i && Nat.eqb c j)%bool; lra.
Qed.

(** *** Derivative rules *)
Lemma dlim_ext : forall f g x d, (forall t, f t = g t) -> derivable_pt_lim f x d -> derivable_pt_lim g x d.
Proof.
  intros f g x d E H eps He. destruct (H eps He) as [del Hd]. exists del. intros h Hh Hl.
  rewrite <- !E. now apply Hd.
Qed.

Lemma dlim_eq : forall f x d d', d = d' -> derivable_pt_lim f x d -> derivable_pt_lim f x d'.
Proof. intros; subst; assumption. Qed.

Lemma dlim_unique : forall f x d d', derivable_pt_lim f x d -> derivable_pt_lim f x d' -> d = d'.
Proof. intros. eapply uniqueness_limite; eauto. Qed.

Lemma dlim_lin : forall a b x, derivable_pt_lim (fun t => a * t + b) x a.
Proof.
  intros a b x eps He. exists (mkposreal 1 Rlt_0_1). intros h Hh _.
  replace ((a * (x + h) + b - (a * x + b)) / h - a) with 0 by (field; assumption). rewrite Rabs_R0. assumption.
Qed.

Lemma dlim_scal_in : forall f s x d, derivable_pt_lim f (x * s) d -> derivable_pt_lim (fun t => f (t * s)) x (d * s).
Proof.
  intros f s x d H.
  apply (derivable_pt_lim_comp (fun t => t * s) f x s d).
  - apply dlim_ext with (f := fun t => s * t + 0); [intro; lra|]. apply dlim_lin.
  - assumption.
Qed.

Lemma dlim_scal : forall f k x d, derivable_pt_lim f x d -> derivable_pt_lim (fun t => k * f t) x (k * d).
Proof. intros f k x d H. apply (derivable_pt_lim_scal f k x d H). Qed.

Lemma dlim_plus : forall f g x a b, derivable_pt_lim f x a -> derivable_pt_lim g x b ->
  derivable_pt_lim (fun t => f t + g t) x (a + b).
Proof. intros f g x a b H1 H2. apply (derivable_pt_lim_plus f g x a b H1 H2). Qed.

Lemma dlim_mult : forall f g x a b, derivable_pt_lim f x a -> derivable_pt_lim g x b ->
  derivable_pt_lim (fun t => f t * g t) x (a * g x + f x * b).
Proof. intros f g x a b H1 H2. apply (derivable_pt_lim_mult f g x a b H1 H2). Qed.

Lemma dlim_const : forall c x, derivable_pt_lim (fun _ => c) x 0.
Proof. intros. apply dlim_ext with (f := fun t => 0 * t + c); [intro; lra|]. apply dlim_lin. Qed.

Lemma dlim_rsum : forall (fs : list (R -> R)) ds x, Forall2 (fun f d => derivable_pt_lim f x d) fs ds ->
  derivable_pt_lim (fun t => rsum (map (fun f => f t) fs)) x (rsum ds).
Proof.
  intros fs ds x H; induction H; simpl; [apply dlim_const|]. now apply dlim_plus.
Qed.

Lemma pderiv_ext : forall f g x j d, (forall y, f y = g y) -> pderiv f x j d -> pderiv g x j d.
Proof. intros f g x j d E H. unfold pderiv in *. eapply dlim_ext; [|eassumption]. intro; apply E. Qed.

(** extensionality on vectors of the length of [x] only *)
Lemma pderiv_ext_len : forall f g x j d, (forall y, List.length y = List.length x -> f y = g y) -> pderiv f x j d -> pderiv g x j d.
Proof. intros f g x j d E H. unfold pderiv in *. eapply dlim_ext; [|eassumption]. intro; apply E. apply upd_length. Qed.

Lemma pderiv_eq : forall f x j d d', d = d' -> pderiv f x j d -> pderiv f x j d'.
Proof. intros; subst; assumption. Qed.

Lemma pderiv_plus : forall f g x j a b, pderiv f x j a -> pderiv g x j b -> pderiv (fun y => f y + g y) x j (a + b).
Proof. intros. apply (dlim_plus _ _ _ _ _ H H0). Qed.
Lemma pderiv_scal : forall f k x j a, pderiv f x j a -> pderiv (fun y => k * f y) x j (k * a).
Proof. intros. apply (dlim_scal _ k _ _ H). Qed.
Lemma pderiv_const : forall c x j, pderiv (fun _ => c) x j 0.
Proof. intros. unfold pderiv. apply dlim_const. Qed.
Lemma pderiv_mult : forall f g x j a b, pderiv f x j a -> pderiv g x j b ->
  pderiv (fun y => f y * g y) x j (a * g x + f x * b).
Proof.
  intros. unfold pderiv in *. pose proof (dlim_mult _ _ _ _ _ H H0) as M. simpl in M.
  now rewrite !upd_self in M.
Qed.
Lemma pderiv_unique : forall f x j a b, pderiv f x j a -> pderiv f x j b -> a = b.
Proof. intros. eapply dlim_unique; eauto. Qed.

(** coordinate functions *)
Lemma pderiv_coord : forall i j x, (j < List.length x)%nat -> pderiv (vget i) x j (if Nat.eqb i j then 1 else 0).
Proof.
  intros i j x Hj. unfold pderiv. destruct (Nat.eqb_spec i j).
  - subst. apply dlim_ext with (f := fun t => 1 * t + 0); [|apply dlim_lin].
    intro t. rewrite vget_upd_same by assumption. lra.
  - apply dlim_ext with (f := fun _ => vget i x); [|apply dlim_const].
    intro t. now rewrite vget_upd_other.
Qed.

(** chain rule for the substitution x |-> x * s used by all scaling code *)
Lemma pderiv_vmul : forall f s x j d, List.length x = List.length s -> (j < List.length x)%nat ->
  pderiv f (vmul x s) j d -> pderiv (fun y => f (vmul y s)) x j (d * vget j s).
Proof.
  intros f s x j d Hl Hj H. unfold pderiv in *.
  apply dlim_ext with (f := fun t => f (upd j (t * vget j s) (vmul x s))).
  - intro t. now rewrite vmul_upd.
  - apply (dlim_scal_in (fun u => f (upd j u (vmul x s))) (vget j s)).
    rewrite <- vget_vmul by assumption. assumption.
Qed.

Lemma pderiv_rsum : forall {I} (fs : I -> list R -> R) (ds : I -> R) (l : list I) x j,
  (forall i, In i l -> pderiv (fs i) x j (ds i)) ->
  pderiv (fun y => rsum (map (fun i => fs i y) l)) x j (rsum (map ds l)).
Proof.
  intros I fs ds l x j; induction l as [|i r IH]; intro H; simpl; [apply pderiv_const|].
  apply (pderiv_plus (fs i)); [apply H; simpl; auto|]. apply IH. intros; apply H; simpl; auto.
Qed.
