(** C47: reading tire property files. *)
From Verif Require Import Base TirModel.

(** ** specification *)
(** a text without the separators = and $ *)
Definition plain (s : string) : Prop := forall c, has_char c s = true -> c <> eqc /\ c <> dol.
(** what follows the value: the end of the line, or a separator and anything *)
Definition tail_ok (s : string) : Prop := s = EmptyString \/ exists c r, s = String c r /\ (c = eqc \/ c = dol).
Infix "^^" := String.append (at level 60, right associativity).
(** the line is: name = value (more) *)
Definition entry (line name value : string) : Prop := exists a b c, line = a ^^ String eqc (b ^^ c) /\ plain a /\ plain b /\ tail_ok c /\ name = remove_spaces a /\ value = strip (remove_spaces b).
(** a line is well formed when it has no = at all, or when the text before its first = has no $ *)
Definition well_formed (line : string) : Prop := has_char eqc line = false \/ exists a r, line = a ^^ String eqc r /\ plain a.

Lemma split_re_ne : forall s, split_re s <> [].
Proof. induction s as [|a s IH]; [discriminate|]. cbn. destruct (_ || _)%bool; [discriminate|]. destruct (split_re s); discriminate. Qed.
Lemma has_rs : forall c s, c <> space -> has_char c (remove_spaces s) = has_char c s.
Proof. intros c s N. induction s as [|a s IH]; [reflexivity|]. cbn. destruct (Ascii.eqb_spec a space) as [->|Na]; [rewrite IH|cbn; now rewrite IH]. destruct (Ascii.eqb_spec space c); [congruence|reflexivity]. Qed.
Lemma split_two : forall s, has_char eqc s = true -> exists a b r, split_re s = a :: b :: r.
Proof.
  induction s as [|c s IH]; [discriminate|]. intro H. cbn in H. cbn [split_re]. destruct (Ascii.eqb_spec c eqc) as [->|N].
  - cbn [orb]. pose proof (split_re_ne s). destruct (split_re s) as [|b r]; [contradiction|]. now exists EmptyString, b, r.
  - cbn [orb] in *. destruct (IH H) as (a & b & r & ->). destruct (Ascii.eqb c dol); [now exists EmptyString, a, (b :: r)|now exists (String c a), b, r].
Qed.
Lemma rs_app : forall a b, remove_spaces (a ^^ b) = remove_spaces a ^^ remove_spaces b.
Proof. induction a as [|c a IH]; intro b; [reflexivity|]. cbn. destruct (Ascii.eqb c space); [apply IH|cbn; now rewrite IH]. Qed.
Lemma plain_rs : forall s, plain s -> plain (remove_spaces s).
Proof. intros s H c Hc. destruct (Ascii.eqb_spec c space) as [->|N]; [split; discriminate|]. apply H. now rewrite <- (has_rs c s N). Qed.
Lemma plain_cons : forall c s, plain (String c s) -> c <> eqc /\ c <> dol /\ plain s.
Proof. intros c s H. assert (has_char c (String c s) = true) as E by (cbn; now rewrite Ascii.eqb_refl). destruct (H c E). split; [assumption|]. split; [assumption|]. intros y Hy. apply (H y). cbn. rewrite Hy. apply orb_true_r. Qed.
Lemma split_sep : forall a c r, plain a -> c = eqc \/ c = dol -> split_re (a ^^ String c r) = a :: split_re r.
Proof.
  induction a as [|x a IH]; intros c r P Hc.
  - cbn. destruct Hc as [->| ->]; reflexivity.
  - destruct (plain_cons _ _ P) as (N1 & N2 & P'). cbn [String.append split_re]. destruct (Ascii.eqb_spec x eqc); [contradiction|]. destruct (Ascii.eqb_spec x dol); [contradiction|]. cbn [orb]. now rewrite IH.
Qed.
Lemma split_plain : forall a, plain a -> split_re a = [a].
Proof. induction a as [|x a IH]; intro P; [reflexivity|]. destruct (plain_cons _ _ P) as (N1 & N2 & P'). cbn [split_re]. destruct (Ascii.eqb_spec x eqc); [contradiction|]. destruct (Ascii.eqb_spec x dol); [contradiction|]. cbn [orb]. now rewrite IH. Qed.
Lemma app_nil : forall a, a ^^ EmptyString = a.
Proof. induction a as [|c a IH]; [reflexivity|]. cbn. now rewrite IH. Qed.
Lemma split_entry : forall line name value, entry line name value -> has_char eqc line = true /\ exists v r, split_re (remove_spaces line) = name :: v :: r /\ strip v = value.
Proof.
  intros line name value (a & b & c & -> & Pa & Pb & Tc & -> & ->). split.
  - clear. induction a as [|x a IH]; [reflexivity|]. cbn. rewrite IH. apply orb_true_r.
  - rewrite rs_app. cbn [remove_spaces]. change (Ascii.eqb eqc space) with false. cbn iota. rewrite split_sep by (auto using plain_rs). rewrite rs_app. destruct Tc as [-> |(x & r & -> & Hx)].
    + cbn [remove_spaces]. rewrite app_nil, split_plain by auto using plain_rs. now do 2 eexists.
    + cbn [remove_spaces]. assert (Ascii.eqb x space = false) as -> by (destruct Hx as [->| ->]; reflexivity). rewrite split_sep by (auto using plain_rs). now do 2 eexists.
Qed.
(** the pieces of a text, cut at its first separator *)
Lemma cut : forall s, exists a c, s = a ^^ c /\ plain a /\ tail_ok c.
Proof.
  induction s as [|x s IH]; [exists EmptyString, EmptyString; split; [reflexivity|]; split; [intros c H; discriminate H|now left]|]. destruct IH as (a & c & -> & P & T).
  destruct (Ascii.eqb_spec x eqc) as [->|N1]; [exists EmptyString, (String eqc (a ^^ c)); split; [reflexivity|]; split; [intros ? H; discriminate H|]; right; do 2 eexists; split; [reflexivity|now left]|].
  destruct (Ascii.eqb_spec x dol) as [->|N2]; [exists EmptyString, (String dol (a ^^ c)); split; [reflexivity|]; split; [intros ? H; discriminate H|]; right; do 2 eexists; split; [reflexivity|now right]|].
  exists (String x a), c. split; [reflexivity|]. split; [|exact T]. intros y Hy. cbn in Hy. destruct (Ascii.eqb_spec x y) as [Exy|]; [rewrite <- Exy; now split|]. cbn in Hy. now apply P.
Qed.

Section Reading.
Context {V : Type} (num : string -> option V).

(** Reading never fails. *)
Theorem C47_total : forall lines, exists params, read_tir_file num lines = Ok params /\ NoDup (keys params).
Proof.
  intro lines. unfold read_tir_file. assert (forall l d, NoDup (keys d) -> exists params, foldM (read_line num) l d = Ok params /\ NoDup (keys params)) as F; [|apply F; constructor].
  induction l as [|x l IH]; intros d Hd; [now exists d|]. cbn [foldM]. assert (exists d', read_line num d x = Ok d' /\ NoDup (keys d')) as (d' & -> & Hd'); [|now apply IH].
  unfold read_line. destruct (has_char eqc x) eqn:E; [|now exists d]. destruct (split_two (remove_spaces x)) as (a & b & r & ->); [rewrite has_rs; [exact E|discriminate]|]. eexists. split; [reflexivity|]. destruct (num (strip b)); [now apply NoDup_keys_dset|exact Hd].
Qed.

(** In a file of well formed lines, a name has a value exactly when some line gives it a numeric value, and it is the value of the last such line. *)
Definition gives (line name : string) (v : V) : Prop := exists t, entry line name t /\ num t = Some v.
Definition last_given (lines : list string) (name : string) (v : V) : Prop :=
  exists l1 x l2, lines = l1 ++ x :: l2 /\ gives x name v /\ forall y w, In y l2 -> ~ gives y name w.
Lemma wf_entry : forall line, well_formed line -> has_char eqc line = true -> exists name t, entry line name t.
Proof. intros line [H|(a & r & -> & P)] E; [congruence|]. destruct (cut r) as (b & c & -> & Pb & Tc). do 2 eexists. exists a, b, c. split; [reflexivity|]. split; [exact P|]. split; [exact Pb|]. split; [exact Tc|]. split; reflexivity. Qed.
Lemma entry_fun : forall line n1 t1 n2 t2, entry line n1 t1 -> entry line n2 t2 -> n1 = n2 /\ t1 = t2.
Proof. intros line n1 t1 n2 t2 A B. destruct (split_entry _ _ _ A) as (_ & v & r & E & <-). destruct (split_entry _ _ _ B) as (_ & v' & r' & E' & <-). rewrite E in E'. now injection E' as -> -> ->. Qed.
Lemma read_line_spec : forall d x, well_formed x -> exists d', read_line num d x = Ok d' /\
  (forall name v, gives x name v -> dget name d' = Some v) /\ (forall name, (forall v, ~ gives x name v) -> dget name d' = dget name d).
Proof.
  intros d x W. unfold read_line. destruct (has_char eqc x) eqn:E.
  - destruct (wf_entry x W E) as (n & t & En). destruct (split_entry _ _ _ En) as (_ & v & r & -> & St). rewrite St. destruct (num t) as [w|] eqn:Ew.
    + eexists. split; [reflexivity|]. split.
      * intros name v' (t' & En' & Ht'). destruct (entry_fun _ _ _ _ _ En En') as [<- <-]. rewrite Ew in Ht'. injection Ht' as <-. apply dget_dset_same.
      * intros name N. apply dget_dset_other. intros ->. apply (N w). now exists t.
    + eexists. split; [reflexivity|]. split; [|reflexivity]. intros name v' (t' & En' & Ht'). destruct (entry_fun _ _ _ _ _ En En') as [<- <-]. congruence.
  - exists d. split; [reflexivity|]. split; [|reflexivity]. intros name v (t & En & _). destruct (split_entry _ _ _ En) as (H & _). congruence.
Qed.
Lemma gives_dec : forall x name, well_formed x -> (exists v, gives x name v) \/ (forall v, ~ gives x name v).
Proof.
  intros x name W. destruct (has_char eqc x) eqn:E; [|right; intros v (t & En & _); destruct (split_entry _ _ _ En) as (H & _); congruence]. destruct (wf_entry x W E) as (n & t & En). destruct (string_dec n name) as [->|N].
  - destruct (num t) as [w|] eqn:Ew; [left; exists w, t; now split|]. right. intros v (t' & En' & Ht'). destruct (entry_fun _ _ _ _ _ En En') as [_ <-]. congruence.
  - right. intros v (t' & En' & _). destruct (entry_fun _ _ _ _ _ En En') as [Q _]. congruence.
Qed.
Theorem C47_values : forall lines params, Forall well_formed lines -> read_tir_file num lines = Ok params ->
  forall name v, dget name params = Some v <-> last_given lines name v.
Proof.
  intros lines params W E name.
  assert (forall l d p, Forall well_formed l -> foldM (read_line num) l d = Ok p -> forall v, dget name p = Some v <-> last_given l name v \/ (dget name d = Some v /\ forall y w, In y l -> ~ gives y name w)) as F.
  { induction l as [|x l IH]; intros d p Wl Ef v.
    - cbn in Ef. injection Ef as <-. split; [intro H; right; split; [exact H|intros ? ? []]|]. intros [(l1 & x & l2 & El & _)|[H _]]; [destruct l1; discriminate|exact H].
    - inversion Wl as [|? ? Wx Wl']; subst. cbn [foldM] in Ef. destruct (read_line_spec d x Wx) as (d' & Ed & G & N). rewrite Ed in Ef. rewrite (IH d' p Wl' Ef v). split.
      + intros [(l1 & y & l2 & -> & Gy & Ny)|[H Hn]]; [left; exists (x :: l1), y, l2; repeat split; assumption|]. destruct (gives_dec x name Wx) as [[w Gw]|Nw].
        * left. exists [], x, l. split; [reflexivity|]. rewrite (G _ _ Gw) in H. injection H as <-. now split.
        * right. rewrite N in H by exact Nw. split; [exact H|]. intros y w [<-|Hy]; [apply Nw|now apply Hn].
      + intros [(l1 & y & l2 & El & Gy & Ny)|[H Hn]].
        * destruct l1 as [|x' l1]; injection El as -> ->; [right; split; [now apply G|exact Ny]|left; now exists l1, y, l2].
        * right. split; [rewrite N; [exact H|]; intros w; apply Hn; now left|]. intros y w Hy. apply Hn. now right. }
  intro v. rewrite (F lines [] params W E v). split; [intros [H|[H _]]; [exact H|discriminate]|now left].
Qed.
(** The four regularisation constants are always set by the program, and nothing else is touched. *)
Theorem C47_constants : forall e6 e3 lines params, read_tir_file num lines = Ok params -> exists p, create_params_from_tir_file num e6 e3 lines = Ok p /\
  dget "epsilonv" p = Some e6 /\ dget "epsilonx" p = Some e3 /\ dget "epsilonk" p = Some e6 /\ dget "epsilony" p = Some e3 /\
  forall k, ~ In k ["epsilonv"; "epsilonx"; "epsilonk"; "epsilony"] -> dget k p = dget k params.
Proof.
  intros e6 e3 lines params E. unfold create_params_from_tir_file. rewrite E. cbn [fmap]. eexists. split; [reflexivity|]. unfold dupdate. cbn [fold_left fst snd].
  split; [repeat (rewrite dget_dset_other by discriminate); apply dget_dset_same|]. split; [repeat (rewrite dget_dset_other by discriminate); apply dget_dset_same|]. split; [repeat (rewrite dget_dset_other by discriminate); apply dget_dset_same|]. split; [apply dget_dset_same|].
  intros k N. rewrite !dget_dset_other by (intro Q; apply N; rewrite <- Q; cbn; tauto). reflexivity.
Qed.
End Reading.
Print Assumptions C47_total.
Print Assumptions C47_values.
Print Assumptions C47_constants.

(** ** what goes wrong: comments with = are read as data, a tab stays in the name, a value missing before a comment is taken from the comment *)
Definition num1 (s : string) : option nat := if String.eqb s "5" then Some 5 else if String.eqb s "7" then Some 7 else None.
Definition nl : string := String (ascii_of_nat 10) EmptyString.
Definition tab : string := String (ascii_of_nat 9) EmptyString.
Theorem C47_comments_refuted :
  read_tir_file num1 ["! note: a = 5" ^^ nl] = Ok [("!note:a", 5)] /\ read_tir_file num1 ["$ 5 = five" ^^ nl] = Ok [("", 5)] /\ read_tir_file num1 ["LONGVL $ 5 = default" ^^ nl] = Ok [("LONGVL", 5)] /\
  read_tir_file num1 ["LONGVL" ^^ tab ^^ "= 5" ^^ nl] = Ok [("LONGVL" ^^ tab, 5)].
Proof. repeat split; reflexivity. Qed.
Print Assumptions C47_comments_refuted.

Example C47_nonvacuous : let file := ["[VERTICAL]" ^^ nl; "FNOMIN   = 7    $load = nominal" ^^ nl; "LENGTH = 'meter'" ^^ nl; "FNOMIN = 5" ^^ nl] in
  Forall well_formed file /\ read_tir_file num1 file = Ok [("FNOMIN", 5)] /\ last_given num1 file "FNOMIN" 5.
Proof.
  cbv zeta. assert (Forall well_formed ["[VERTICAL]" ^^ nl; "FNOMIN   = 7    $load = nominal" ^^ nl; "LENGTH = 'meter'" ^^ nl; "FNOMIN = 5" ^^ nl]) as W.
  { assert (forall a, has_char eqc a = false -> has_char dol a = false -> plain a) as P. { intros a H1 H2 c Hc. split; intros ->; congruence. }
    constructor; [left; reflexivity|]. constructor; [right; exists "FNOMIN   ", (" 7    $load = nominal" ^^ nl); split; [reflexivity|now apply P]|]. constructor; [right; exists "LENGTH ", (" 'meter'" ^^ nl); split; [reflexivity|now apply P]|]. constructor; [right; exists "FNOMIN ", (" 5" ^^ nl); split; [reflexivity|now apply P]|]. constructor. }
  assert (read_tir_file num1 ["[VERTICAL]" ^^ nl; "FNOMIN   = 7    $load = nominal" ^^ nl; "LENGTH = 'meter'" ^^ nl; "FNOMIN = 5" ^^ nl] = Ok [("FNOMIN", 5)]) as E by reflexivity.
  split; [exact W|]. split; [exact E|]. apply (C47_values num1 _ _ W E). reflexivity.
Qed.
