(** Common vocabulary of the model: Python exceptions as values, insertion-ordered
    dictionaries, string split/join.  Nothing here is specific to lumos. *)
From Coq Require Export String Ascii Bool Arith Lia ZArith List.
Export ListNotations.
Open Scope string_scope.
Open Scope list_scope.

(** Python exceptions that the modelled code can raise. *)
Inductive exn : Type :=
| KeyError | ValueError | RuntimeError | TypeError | IndexError | AttributeError
| NameError | AssertionError | FileNotFoundError | ZeroDivisionError | RecursionError | NotImplementedError | StopIteration.

Inductive result (A : Type) : Type :=
| Ok (a : A)
| Raise (e : exn).
Arguments Ok {A} a.
Arguments Raise {A} e.

Definition bind {A B} (r : result A) (f : A -> result B) : result B :=
  match r with Ok a => f a | Raise e => Raise e end.
Definition fmap {A B} (f : A -> B) (r : result A) : result B :=
  match r with Ok a => Ok (f a) | Raise e => Raise e end.

Definition is_ok {A} (r : result A) : bool :=
  match r with Ok _ => true | Raise _ => false end.

(** Evaluate a list of computations left to right, stopping at the first exception. *)
Fixpoint mapM {A B} (f : A -> result B) (l : list A) : result (list B) :=
  match l with
  | [] => Ok []
  | a :: r => match f a with
              | Raise e => Raise e
              | Ok b => match mapM f r with Raise e => Raise e | Ok bs => Ok (b :: bs) end
              end
  end.

(** A for-loop over [l] threading a state, stopping at the first exception. *)
Fixpoint foldM {S A} (f : S -> A -> result S) (l : list A) (s : S) : result S :=
  match l with
  | [] => Ok s
  | a :: r => match f s a with Raise e => Raise e | Ok s' => foldM f r s' end
  end.

(** ** Insertion-ordered dictionaries with string keys (Python [dict]) *)
Definition dict (V : Type) : Type := list (string * V).

Fixpoint dget {V} (k : string) (d : dict V) : option V :=
  match d with
  | [] => None
  | (k', v) :: r => if String.eqb k k' then Some v else dget k r
  end.

(** [d[k] = v]: overwrite in place, or append at the end. *)
Fixpoint dset {V} (k : string) (v : V) (d : dict V) : dict V :=
  match d with
  | [] => [(k, v)]
  | (k', v') :: r => if String.eqb k k' then (k', v) :: r else (k', v') :: dset k v r
  end.

(** [del d[k]] (no effect when absent; callers test membership). *)
Fixpoint ddel {V} (k : string) (d : dict V) : dict V :=
  match d with
  | [] => []
  | (k', v') :: r => if String.eqb k k' then r else (k', v') :: ddel k r
  end.

(** [d.update(e)] *)
Definition dupdate {V} (d e : dict V) : dict V :=
  fold_left (fun acc kv => dset (fst kv) (snd kv) acc) e d.

(** A dict comprehension / [dict(zip(...))]: later keys overwrite earlier ones. *)
Definition dict_of_list {V} (l : list (string * V)) : dict V := dupdate [] l.

Definition dmem {V} (k : string) (d : dict V) : bool :=
  match dget k d with Some _ => true | None => false end.

Definition keys {V} (d : dict V) : list string := map fst d.
Definition values {V} (d : dict V) : list V := map snd d.

Definition lookup_err {V} (k : string) (d : dict V) : result V :=
  match dget k d with Some v => Ok v | None => Raise KeyError end.

(** ** [str.split(c)] and [c.join(l)] for a one-character separator *)
Fixpoint split (c : ascii) (s : string) : list string :=
  match s with
  | EmptyString => [EmptyString]
  | String a r =>
      if Ascii.eqb a c then EmptyString :: split c r
      else match split c r with
           | [] => [String a EmptyString]
           | h :: t => String a h :: t
           end
  end.

Fixpoint join (c : ascii) (l : list string) : string :=
  match l with
  | [] => EmptyString
  | [s] => s
  | s :: r => String.append s (String c (join c r))
  end.

Fixpoint no_char (c : ascii) (s : string) : bool :=
  match s with
  | EmptyString => true
  | String a r => negb (Ascii.eqb a c) && no_char c r
  end.

Definition dot : ascii := "."%char.

(** ** Lemmas *)
Lemma dget_dset_same : forall V k (v : V) d, dget k (dset k v d) = Some v.
Proof.
  intros V k v d; induction d as [|[k' v'] r IH]; simpl.
  - now rewrite String.eqb_refl.
  - destruct (String.eqb k k') eqn:E; simpl; rewrite E; auto.
Qed.

Lemma dget_dset_other : forall V k k2 (v : V) d, k <> k2 -> dget k2 (dset k v d) = dget k2 d.
Proof.
  intros V k k2 v d Hne; induction d as [|[k' v'] r IH]; simpl.
  - destruct (String.eqb_spec k2 k); congruence.
  - destruct (String.eqb_spec k k'); simpl.
    + subst. destruct (String.eqb_spec k2 k'); congruence.
    + destruct (String.eqb k2 k'); auto.
Qed.

Lemma dget_in : forall V k (v : V) d, dget k d = Some v -> In (k, v) d.
Proof.
  intros V k v d; induction d as [|[k' v'] r IH]; simpl; [discriminate|].
  destruct (String.eqb_spec k k'); intro H; [inversion H; subst; auto | auto].
Qed.

Lemma dget_none : forall V k (d : dict V), dget k d = None <-> ~ In k (keys d).
Proof.
  intros V k d; induction d as [|[k' v'] r IH]; simpl; [tauto|].
  destruct (String.eqb_spec k k') as [E|E].
  - subst. split; intro H; [discriminate | exfalso; apply H; auto].
  - rewrite IH. split; intros H; [intros [H1|H1]; [congruence | auto] | auto].
Qed.

Lemma dget_some_iff : forall V k (d : dict V), (exists v, dget k d = Some v) <-> In k (keys d).
Proof.
  intros V k d. destruct (dget k d) eqn:E.
  - split; [intros _ | eauto]. apply dget_in in E. apply in_map_iff. now exists (k, v).
  - apply dget_none in E. split; [intros [v Hv]; discriminate | tauto].
Qed.

Lemma in_dget : forall V k (v : V) d, NoDup (keys d) -> In (k, v) d -> dget k d = Some v.
Proof.
  intros V k v d; induction d as [|[k' v'] r IH]; simpl; [tauto|].
  intros Hnd [H|H].
  - inversion H; subst. now rewrite String.eqb_refl.
  - inversion Hnd; subst. destruct (String.eqb_spec k k') as [E|E]; [|auto].
    subst. exfalso. apply H2. apply in_map_iff. now exists (k', v).
Qed.

Lemma keys_dset_in : forall V k (v : V) d, In k (keys d) -> keys (dset k v d) = keys d.
Proof.
  intros V k v d; induction d as [|[k' v'] r IH]; simpl; [tauto|].
  intro H. destruct (String.eqb_spec k k'); simpl; [reflexivity|].
  f_equal. apply IH. destruct H; [congruence | auto].
Qed.

Lemma dset_notin : forall V k (v : V) d, ~ In k (keys d) -> dset k v d = d ++ [(k, v)].
Proof.
  intros V k v d; induction d as [|[k' v'] r IH]; simpl; [reflexivity|].
  intro H. destruct (String.eqb_spec k k') as [E|E]; [exfalso; apply H; auto|].
  f_equal. apply IH. tauto.
Qed.

Lemma keys_dset_notin : forall V k (v : V) d, ~ In k (keys d) -> keys (dset k v d) = keys d ++ [k].
Proof.
  intros. rewrite dset_notin by assumption. unfold keys. now rewrite map_app.
Qed.

Lemma in_keys_dset : forall V k (v : V) d x, In x (keys (dset k v d)) <-> x = k \/ In x (keys d).
Proof.
  intros V k v d x. destruct (in_dec string_dec k (keys d)) as [H|H].
  - rewrite keys_dset_in by assumption. split; [auto|]. intros [->|]; auto.
  - rewrite keys_dset_notin by assumption. rewrite in_app_iff. simpl. intuition.
Qed.

Lemma NoDup_snoc : forall A (l : list A) x, NoDup l -> ~ In x l -> NoDup (l ++ [x]).
Proof.
  intros A l x; induction l as [|a r IH]; simpl; intros Hn Hx.
  - constructor; [tauto | constructor].
  - inversion Hn; subst. constructor.
    + rewrite in_app_iff. simpl. intuition.
    + apply IH; intuition.
Qed.

Lemma NoDup_keys_dset : forall V k (v : V) d, NoDup (keys d) -> NoDup (keys (dset k v d)).
Proof.
  intros V k v d H. destruct (in_dec string_dec k (keys d)) as [Hi|Hi].
  - now rewrite keys_dset_in.
  - rewrite keys_dset_notin by assumption. now apply NoDup_snoc.
Qed.

Lemma NoDup_keys_dupdate : forall V e (d : dict V), NoDup (keys d) -> NoDup (keys (dupdate d e)).
Proof.
  intros V e; induction e as [|[k v] r IH]; simpl; intros d H; [exact H|].
  apply IH. now apply NoDup_keys_dset.
Qed.

Lemma NoDup_app_inv : forall A (l1 l2 : list A), NoDup (l1 ++ l2) ->
  NoDup l1 /\ NoDup l2 /\ (forall x, In x l1 -> ~ In x l2).
Proof.
  intros A l1; induction l1 as [|a r IH]; simpl; intros l2 H.
  - repeat split; [constructor | assumption | tauto].
  - inversion H as [|? ? Hn Hd]; subst. destruct (IH _ Hd) as (H1 & H2 & H3).
    rewrite in_app_iff in Hn. repeat split; auto.
    + constructor; tauto.
    + intros x [->|Hx]; [tauto | now apply H3].
Qed.

Lemma NoDup_app_intro : forall A (l1 l2 : list A), NoDup l1 -> NoDup l2 ->
  (forall x, In x l1 -> ~ In x l2) -> NoDup (l1 ++ l2).
Proof.
  intros A l1; induction l1 as [|a r IH]; simpl; intros l2 H1 H2 H3; [assumption|].
  inversion H1; subst. constructor.
  - rewrite in_app_iff. intros [H|H]; [tauto | apply (H3 a); auto].
  - apply IH; auto. 
Qed.

Lemma dupdate_app : forall V e (d : dict V),
  NoDup (keys (d ++ e)) -> dupdate d e = d ++ e.
Proof.
  intros V e; induction e as [|[k v] r IH]; simpl; intros d H; [now rewrite app_nil_r|].
  unfold dupdate in *; simpl. rewrite dset_notin.
  - rewrite IH; rewrite <- app_assoc; [reflexivity | exact H].
  - unfold keys in H. rewrite map_app in H. apply NoDup_app_inv in H.
    intro Hk. destruct H as (_ & _ & H). apply (H k Hk). simpl; auto.
Qed.

Lemma dict_of_list_nodup : forall V (l : list (string * V)),
  NoDup (map fst l) -> dict_of_list l = l.
Proof. intros. unfold dict_of_list. now rewrite dupdate_app. Qed.

(** *** split / join *)
Lemma split_not_nil : forall c s, split c s <> [].
Proof.
  intros c s; destruct s as [|a r]; simpl; [discriminate|].
  destruct (Ascii.eqb a c); [discriminate|]. destruct (split c r); discriminate.
Qed.

Lemma split_clean : forall c s, no_char c s = true -> split c s = [s].
Proof.
  intros c s; induction s as [|a r IH]; simpl; [reflexivity|].
  intro H. apply andb_true_iff in H. destruct H as [H1 H2].
  apply negb_true_iff in H1. rewrite H1. now rewrite IH.
Qed.

Lemma split_append : forall c s r, no_char c s = true ->
  split c (String.append s (String c r)) = s :: split c r.
Proof.
  intros c s; induction s as [|a t IH]; simpl; intros r H.
  - now rewrite Ascii.eqb_refl.
  - apply andb_true_iff in H. destruct H as [H1 H2]. apply negb_true_iff in H1.
    rewrite H1. now rewrite IH.
Qed.

Lemma split_join : forall c l, l <> [] -> forallb (no_char c) l = true ->
  split c (join c l) = l.
Proof.
  intros c l; induction l as [|s r IH]; [congruence|].
  intros _ H. simpl in H. apply andb_true_iff in H. destruct H as [H1 H2].
  destruct r as [|s2 r2].
  - simpl. now apply split_clean.
  - change (join c (s :: s2 :: r2)) with (String.append s (String c (join c (s2 :: r2)))).
    rewrite split_append by assumption. rewrite IH; [reflexivity | discriminate | assumption].
Qed.

Lemma join_split : forall c s, join c (split c s) = s.
Proof.
  intros c s; induction s as [|a r IH]; simpl; [reflexivity|].
  destruct (Ascii.eqb_spec a c) as [E|E].
  - subst. pose proof (split_not_nil c r). destruct (split c r) as [|h t] eqn:Er; [congruence|].
    change (join c (EmptyString :: h :: t)) with (String c (join c (h :: t))). now rewrite IH.
  - pose proof (split_not_nil c r). destruct (split c r) as [|h t] eqn:Er; [congruence|].
    destruct t as [|h2 t2]; simpl in *; now rewrite IH.
Qed.

Lemma split_components_clean : forall c s, forallb (no_char c) (split c s) = true.
Proof.
  intros c s; induction s as [|a r IH]; simpl; [reflexivity|].
  destruct (Ascii.eqb a c) eqn:E; simpl; [assumption|].
  destruct (split c r) as [|h t]; simpl in *; rewrite E; simpl; assumption.
Qed.

Lemma split_inj : forall c s1 s2, split c s1 = split c s2 -> s1 = s2.
Proof. intros c s1 s2 H. rewrite <- (join_split c s1), <- (join_split c s2). now rewrite H. Qed.

(** Lists: last / removelast *)
Lemma removelast_last_app : forall A (l : list A) d, l <> [] -> l = removelast l ++ [last l d].
Proof. intros. now apply app_removelast_last. Qed.

Lemma last_snoc : forall A (l : list A) x d, last (l ++ [x]) d = x.
Proof. intros. apply last_last. Qed.

(** Boolean duplicate-freeness of string lists *)
Fixpoint nodupb (l : list string) : bool :=
  match l with [] => true | x :: r => negb (existsb (String.eqb x) r) && nodupb r end.

Lemma nodupb_spec : forall l, nodupb l = true <-> NoDup l.
Proof.
  intros l; induction l as [|x r IH]; simpl.
  - split; [constructor | auto].
  - rewrite andb_true_iff, negb_true_iff, IH. split.
    + intros [H1 H2]. constructor; [|assumption]. intro Hi.
      assert (existsb (String.eqb x) r = true) as E.
      { apply existsb_exists. exists x. split; [assumption | apply String.eqb_refl]. }
      congruence.
    + intro H; inversion H; subst. split; [|assumption].
      apply not_true_iff_false. intro E. apply existsb_exists in E.
      destruct E as (y & Hy & Ey). apply String.eqb_eq in Ey. subst. contradiction.
Qed.
