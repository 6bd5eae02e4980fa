(** C68: stateless models called with arrays *)
From Verif Require Import Base UtilsModel UtilsProofs IoModel IoProps AlgProofs PlainModel.
Local Open Scope string_scope.

(** the parameters the last apply_and_... call has given *)
Fixpoint applied {V P} (p : P) (h : list (pact V P)) : P :=
  match h with
  | [] => p
  | PApply _ q :: r => applied q r
  | PApplyArrays _ q :: r => applied q r
  | _ :: r => applied p r
  end.

Section S.
Variables V P : Type.
Variable nm : string -> list string.
Variable forward : P -> dict V -> result (dict V * dict V).
Local Notation rn := (prun V P nm forward).

Lemma run_last : forall h p a, nth_error (rn p (h ++ [a])) (List.length h) = Some (snd (pstep V P nm forward (applied p h) a)).
Proof.
  induction h as [|b h IH]; intros p a; [reflexivity|]. cbn [app prun List.length nth_error]. rewrite IH.
  destruct b; reflexivity.
Qed.


Lemma arrays_dict : forall (names : list string) (x : list V), NoDup names ->
  (List.length names <= List.length x -> array_to_dict names x = Ok (combine names x)) /\
  (List.length x < List.length names -> array_to_dict names x = Raise IndexError).
Proof.
  intros names x N. split; [apply array_to_dict_ok; exact N|]. intros L. unfold array_to_dict.
  assert (forall k (l : list string), List.length x < k + List.length l ->
     mapM (fun ni => match nth_error x (snd ni) with Some v => Ok (fst ni, v) | None => Raise IndexError end) (combine l (seq k (List.length l))) = Raise IndexError \/
     List.length x < k) as K.
  { intros k l. revert k. induction l as [|n l IH]; intros k H; cbn in *; [right; lia|].
    destruct (nth_error x k) as [v|] eqn:E; cbn [bind].
    - destruct (IH (S k)) as [->|F]; [lia|left; reflexivity|]. assert (k < List.length x) by (apply nth_error_Some; congruence). lia.
    - left. reflexivity. }
  destruct (K 0 names) as [->|F]; [lia|reflexivity|lia].
Qed.
End S.

(** After any history, calling a model with an array of inputs gives its outputs and residuals, each in the declared
    order, for the inputs by name and the parameters applied last. *)
Theorem C68_arrays : forall V P nm forward p h (x : list V), NoDup (nm "inputs") -> List.length x = List.length (nm "inputs") ->
  forall o r, nth_error (prun V P nm forward p (h ++ [PArrays x])) (List.length h) = Some (Ok (RArr V o r)) <->
    exists out res, forward (applied p h) (combine (nm "inputs") x) = Ok (out, res) /\
      Forall2 (fun n a => dget n out = Some a) (nm "outputs") o /\ Forall2 (fun n a => dget n res = Some a) (nm "residuals") r.
Proof.
  intros V P nm forward p h x N L o r. rewrite run_last. cbn [pstep snd]. unfold plain_forward_with_arrays.
  rewrite (proj1 (arrays_dict V nm _ x N)) by lia. cbn [bind].
  destruct (forward (applied p h) (combine (nm "inputs") x)) as [[out res]|e]; cbn [bind fst snd].
  2:{ split; [discriminate|]. intros [? [? [K _]]]. discriminate. }
  pose proof (C33_make_vector V (nm "outputs") out) as [Mo _]. pose proof (C33_make_vector V (nm "residuals") res) as [Mr _].
  split.
  - intros E. exists out, res. split; [reflexivity|].
    destruct (make_vector (nm "outputs") out) as [o'|] eqn:Eo; [|discriminate E].
    destruct (make_vector (nm "residuals") res) as [r'|] eqn:Er; [|discriminate E].
    cbn in E. injection E as <- <-. split; [apply Mo; reflexivity|apply Mr; reflexivity].
  - intros [out' [res' [K [Fo Fr]]]]. injection K as <- <-. apply Mo in Fo. apply Mr in Fr. rewrite Fo. cbn [bind]. rewrite Fr. reflexivity.
Qed.
Print Assumptions C68_arrays.

(** Too few inputs raise an IndexError; what forward raises comes through; a declared output or residual that
    forward does not return is a KeyError. Surplus inputs are ignored. *)
Theorem C68_errors : forall V P nm forward p h (x : list V), NoDup (nm "inputs") ->
  let answer := nth_error (prun V P nm forward p (h ++ [PArrays x])) (List.length h) in
  (List.length x < List.length (nm "inputs") -> answer = Some (Raise IndexError)) /\
  (List.length (nm "inputs") <= List.length x ->
     answer = nth_error (prun V P nm forward p (h ++ [PArrays (firstn (List.length (nm "inputs")) x)])) (List.length h) /\
     forall e, answer = Some (Raise e) <->
       forward (applied p h) (combine (nm "inputs") x) = Raise e \/
       e = KeyError /\ exists out res, forward (applied p h) (combine (nm "inputs") x) = Ok (out, res) /\
         (~ incl (nm "outputs") (keys out) \/ ~ incl (nm "residuals") (keys res))).
Proof.
  intros V P nm forward p h x N answer. unfold answer. rewrite !run_last. cbn [pstep snd]. unfold plain_forward_with_arrays.
  destruct (arrays_dict V nm _ x N) as [A B]. split; [intros L; rewrite (B L); reflexivity|]. intros L. rewrite (A L). cbn [bind].
  assert (combine (nm "inputs") (firstn (List.length (nm "inputs")) x) = combine (nm "inputs") x) as C.
  { clear. revert x. induction (nm "inputs") as [|n l IH]; intros [|a x]; cbn; try reflexivity. rewrite IH. reflexivity. }
  rewrite (proj1 (arrays_dict V nm _ (firstn (List.length (nm "inputs")) x) N)) by (rewrite firstn_length; lia). rewrite C. cbn [bind].
  split; [reflexivity|]. intros e.
  destruct (forward (applied p h) (combine (nm "inputs") x)) as [[out res]|e']; cbn [bind fst snd].
  2:{ cbn [fmap]. split; [intros K; left; congruence|]. intros [K|[_ [? [? [K _]]]]]; [congruence|discriminate]. }
  pose proof (C33_make_vector V (nm "outputs") out) as [Mo Eo]. pose proof (C33_make_vector V (nm "residuals") res) as [Mr Er].
  split.
  - intros K. right. destruct (make_vector (nm "outputs") out) as [o'|e1] eqn:E1.
    + cbn [bind] in K. destruct (make_vector (nm "residuals") res) as [r'|e2] eqn:E2; [discriminate K|]. cbn in K.
      assert (e2 = e) as -> by congruence. destruct (proj1 (Er e) eq_refl) as [-> Ni]. split; [reflexivity|]. exists out, res. auto.
    + cbn in K. assert (e1 = e) as -> by congruence. destruct (proj1 (Eo e) eq_refl) as [-> Ni]. split; [reflexivity|]. exists out, res. auto.
  - intros [K|[-> [out' [res' [K D]]]]]; [discriminate|]. injection K as <- <-.
    destruct (make_vector (nm "outputs") out) as [o'|e1] eqn:E1.
    + cbn [bind]. destruct D as [D|D]; [pose proof (proj2 (Eo KeyError) (conj eq_refl D)); discriminate|].
      rewrite (proj2 (Er KeyError) (conj eq_refl D)). reflexivity.
    + destruct (proj1 (Eo e1) eq_refl) as [-> _]. reflexivity.
Qed.
Print Assumptions C68_errors.

(** An element of the arrays is found by its name. *)
Theorem C68_get : forall V P nm forward p h (x o r : list V), NoDup (nm "outputs") -> 
  nth_error (prun V P nm forward p (h ++ [PArrays x])) (List.length h) = Some (Ok (RArr V o r)) ->
  NoDup (nm "inputs") -> List.length x = List.length (nm "inputs") ->
  exists out res, forward (applied p h) (combine (nm "inputs") x) = Ok (out, res) /\
    (forall n, In n (nm "outputs") -> exists a, dget n out = Some a /\ plain_get V nm "outputs" o n = Ok a) /\
    (forall n, ~ In n (nm "outputs") -> plain_get V nm "outputs" o n = Raise KeyError) /\
    (forall n, In n (nm "inputs") -> exists a, dget n (combine (nm "inputs") x) = Some a /\ plain_get V nm "inputs" x n = Ok a) /\
    List.length o = List.length (nm "outputs") /\ plain_num nm "outputs" = Ok (List.length o) /\ plain_num nm "residuals" = Ok (List.length r) /\
    plain_num nm "inputs" = Ok (List.length x).
Proof.
  intros V P nm forward p h x o r No A N L. apply (C68_arrays V P nm forward p h x N L o r) in A as [out [res [E [Fo Fr]]]].
  exists out, res. split; [exact E|].
  assert (forall names d (v : list V) n, Forall2 (fun n a => dget n d = Some a) names v -> In n names ->
     exists a i, dget n d = Some a /\ index_of n names = Some i /\ nth_error v i = Some a) as G.
  { intros names d v n F. induction F as [|m a l l' Hm F IH]; intros K; [destruct K|]. cbn [index_of].
    destruct (String.eqb_spec n m) as [->|Ne].
    - exists a, 0. rewrite ?String.eqb_refl. auto.
    - destruct K as [->|K]; [congruence|]. destruct (IH K) as [b [i [B1 [B2 B3]]]]. exists b, (S i). rewrite B2.
      split; [exact B1|]. split; [|exact B3]. reflexivity. }
  assert (forall n names, ~ In n names -> index_of n names = None) as G0.
  { intros n. induction names as [|m l IH]; intros K; [reflexivity|]. cbn [index_of].
    destruct (String.eqb_spec n m) as [->|Ne]; [exfalso; apply K; left; reflexivity|].
    rewrite IH; [reflexivity|]. intros J. apply K. right. exact J. }
  assert (Forall2 (fun n a => dget n (combine (nm "inputs") x) = Some a) (nm "inputs") x) as Fi.
  { clear -N L. revert x L. induction (nm "inputs") as [|n l IH]; intros [|a x] L; try discriminate L; [constructor|].
    inversion N as [|? ? Nn Nl]; subst. constructor; [cbn; rewrite String.eqb_refl; reflexivity|].
    injection L as L. specialize (IH Nl x L). clear -IH Nn. 
    assert (forall l1 l2, (forall m, In m l1 -> m <> n) -> Forall2 (fun n0 a0 => dget n0 (combine l x) = Some a0) l1 l2 ->
              Forall2 (fun n0 a0 => dget n0 (combine (n :: l) (a :: x)) = Some a0) l1 l2) as T.
    { intros l1 l2 D F. induction F as [|m b u w Hm F IHF]; constructor.
      - cbn. destruct (String.eqb_spec m n) as [->|]; [exfalso; apply (D n); [left; reflexivity|reflexivity]|exact Hm].
      - apply IHF. intros q Q. apply D. right. exact Q. }
    apply T; [|exact IH]. intros m M ->. exact (Nn M). }
  assert (forall A B (Q : A -> B -> Prop) l l', Forall2 Q l l' -> List.length l = List.length l') as FL
    by (intros A B Q l l' F; induction F; cbn; congruence).
  pose proof (FL _ _ _ _ _ Fo) as Lo. pose proof (FL _ _ _ _ _ Fr) as Lr.
  split; [|split; [|split; [|split; [congruence|split; [|split]]]]].
  - intros n K. destruct (G _ _ _ _ Fo K) as [a [i [A1 [A2 A3]]]]. exists a. split; [exact A1|].
    unfold plain_get, get_var_index. rewrite A2. cbn [bind]. rewrite A3. reflexivity.
  - intros n K. unfold plain_get, get_var_index. rewrite (G0 _ _ K). reflexivity.
  - intros n K. destruct (G _ _ _ _ Fi K) as [a [i [A1 [A2 A3]]]]. exists a. split; [exact A1|].
    unfold plain_get, get_var_index. rewrite A2. cbn [bind]. rewrite A3. reflexivity.
  - unfold plain_num. cbn. congruence.
  - unfold plain_num. cbn. congruence.
  - unfold plain_num. cbn. congruence.
Qed.
Print Assumptions C68_get.

(** apply_and_forward sets the parameters for good: it and every later call use them. *)
Theorem C68_apply : forall V P nm forward p h1 h2 (d d' : dict V) q,
  nth_error (prun V P nm forward p (h1 ++ [PApply d q])) (List.length h1) = Some (fmap (fun r => RDict V (fst r) (snd r)) (forward q d)) /\
  (forallb (fun a => match a with PApply _ _ | PApplyArrays _ _ => false | _ => true end) h2 = true ->
   nth_error (prun V P nm forward p ((h1 ++ PApply d q :: h2) ++ [PForward d'])) (List.length (h1 ++ PApply d q :: h2)) =
   Some (fmap (fun r => RDict V (fst r) (snd r)) (forward q d'))).
Proof.
  intros V P nm forward p h1 h2 d d' q. rewrite !run_last. split; [reflexivity|]. intros K. cbn [pstep snd]. do 3 f_equal.
  assert (forall h2 q, forallb (fun a : pact V P => match a with PApply _ _ | PApplyArrays _ _ => false | _ => true end) h2 = true -> applied q h2 = q) as Q.
  { clear. induction h2 as [|a h2 IH]; intros q K; [reflexivity|]. cbn in K. apply Bool.andb_true_iff in K as [K1 K2].
    destruct a; try discriminate K1; cbn; apply IH, K2. }
  revert p. induction h1 as [|a h1 IH]; intros p; cbn; [apply Q, K|]. destruct a; apply IH.
Qed.
Print Assumptions C68_apply.

(** Not true: that apply_and_forward_with_arrays works. It calls a method that does not exist, whatever the
    model, and changes the parameters before that. *)
Theorem C68_apply_arrays_refuted : forall V P nm forward p h (x : list V) q d,
  nth_error (prun V P nm forward p (h ++ [PApplyArrays x q])) (List.length h) = Some (Raise AttributeError) /\
  nth_error (prun V P nm forward p ((h ++ [PApplyArrays x q]) ++ [PForward d])) (List.length (h ++ [PApplyArrays x q])) =
    Some (fmap (fun r => RDict V (fst r) (snd r)) (forward q d)).
Proof.
  intros V P nm forward p h x q d. rewrite !run_last. split; [reflexivity|]. cbn [pstep snd]. do 3 f_equal.
  revert p. induction h as [|a h IH]; intros p; cbn; [reflexivity|]. destruct a; apply IH.
Qed.
Print Assumptions C68_apply_arrays_refuted.

(** and that a stateless model knows its number of constraint outputs *)
Theorem C68_num_con_outputs_refuted : forall nm, plain_num nm "con_outputs" = Raise AttributeError.
Proof. reflexivity. Qed.
Print Assumptions C68_num_con_outputs_refuted.

(** A model with two inputs that returns its outputs in another order than declared, and one too many *)
Definition ex_nm (g : string) : list string :=
  if String.eqb g "inputs" then ["Fz"; "kappa"] else if String.eqb g "outputs" then ["Fx"; "mu"] else [].
Definition ex_forward (k : nat) (d : dict nat) : result (dict nat * dict nat) :=
  bind (lookup_err "kappa" d) (fun a => bind (lookup_err "Fz" d) (fun b => Ok ([("mu", k); ("Fx", a * b * k); ("extra", 9)], []))).
Example C68_nonvacuous :
  prun nat nat ex_nm ex_forward 1 [PArrays [100; 2]; PApply [("Fz", 1); ("kappa", 1)] 3; PArrays [100; 2; 77]; PArrays [100];
                                   PApplyArrays [100; 2] 5; PArrays [100; 2]] =
  [Ok (RArr nat [200; 1] []); Ok (RDict nat [("mu", 3); ("Fx", 3); ("extra", 9)] []); Ok (RArr nat [600; 3] []); Raise IndexError;
   Raise AttributeError; Ok (RArr nat [1000; 5] [])] /\ NoDup (ex_nm "inputs") /\ NoDup (ex_nm "outputs") /\
  plain_get nat ex_nm "outputs" [600; 3] "mu" = Ok 3.
Proof. split; [reflexivity|]. split; [|split; [|reflexivity]]; repeat constructor; cbn; intuition discriminate. Qed.
