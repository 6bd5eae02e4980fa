(** Lemmas for condensed problems, part 5: values outside the derivative variables, and bounds. *)
From Verif Require Import Base RBase TreeModel UtilsModel UtilsProofs UtilsProofs2 IoModel CollocModel CollocProofs CollocProps MeshModel MeshProofs MeshProps OcpModel OcpProofs OcpProofs2 OcpProofs3 OcpSpec OcpProps NlpModel NlpSpec NlpProofs NlpProofs2 NlpProps NlpProps2
  AlgModel AlgSpec AlgProofs AlgProps ConvModel ConvSpec ConvProps CyclicModel CyclicSpec ObjModel ObjSpec BoundModel BoundSpec BoundProofs ScaleModel ScaleSpec ScaleProofs ScaleProps SolverProofs BuildModel BuildSpec BuildProofs BuildProofs2 BuildProofs3 BuildProofs4 BuildProofs5 BuildProofs6 CondModel CondSpec CondProofs CondProofs2 CondProofs3 CondProofs4 CondProps CondProps2 CBuildModel CBuildSpec.

Lemma stage_range : forall (o : ocp) x g q s v, g <> "global" -> val o x g q s v -> (s < num_stages (oc_op o))%nat.
Proof.
  intros o x g q s v Hg H. unfold val, value_at, get_var, index_at in H. destruct (String.eqb_spec g "global"); [contradiction|]. apply bind_ok in H. destruct H as (i & H & _). apply bind_ok in H. destruct H as (z & H & _).
  unfold norm_stage in H. destruct (Z.ltb_spec (Z.of_nat (num_stages (oc_op o)) - 1) (Z.of_nat s)) as [|H1]; [discriminate|]. lia.
Qed.
Section Same.
Variables (roots : list R -> list R) (tn : string) (tns : option nat) (n : nat) (pts : option (list R)) (fixed : option R) (o : ocp).
Context {P : Type}.
Variables (M : smodel P) (con : list string).
Let st := m_states M.
Let inp := m_inputs M.
Hypothesis B : OcpSpec.built roots tn tns n st inp con pts fixed o.
Let op := oc_op o.

Lemma known_is : forall g q, known_var st inp con fixed g q -> g <> "global" -> is_var op g q.
Proof using B.
  intros g q Hv Hg. pose proof (built_ok _ _ _ _ _ _ _ _ _ _ B) as (K & _). apply (known_slot _ _ _ _ _ _ _ _ _ o g q 0%nat B) in Hv. destruct Hv as [H5 Hq]. unfold names5 in Hq. destruct (String.eqb_spec g "global"); [contradiction|]. split; [|exact Hq]. unfold op. rewrite (oo_sg o K). unfold five in H5. apply in_app_iff in H5. destruct H5 as [H5|[H5|[]]]; [exact H5|congruence].
Qed.
(** a position of a variable outside the group is not one of a derivative variable *)
Lemma not_dot : forall g q s j, known_var st inp con fixed g q -> g <> "states_dot" -> (s < num_stages op)%nat -> index_at op g q (Z.of_nat s) = Ok j -> forall k c, (k < num_stages op)%nat -> ~ dot_pos o k c j.
Proof using B.
  intros g q s j Hv Hg Hs E k c Hk D. pose proof (built_ok _ _ _ _ _ _ _ _ _ _ B) as (K & Hn & Hd & _ & _ & _ & G2 & _ & EF & _). destruct (String.eqb_spec g "global") as [->|Hgl].
  - apply (dot_pos_iff o K Hn Hd) in D; [|exact Hk]. destruct D as [Hc ->]. destruct Hv as [[[X|X] _]|[[X _]|[[X _]|(_ & F & ->)]]]; try discriminate. destruct (index_scale o K Hn Hd) as (E' & _); [congruence|].
    change (index_at op "global" "mesh_scale" (Z.of_nat s)) with (index_at (oc_op o) "global" "mesh_scale" 0) in E. rewrite E' in E. injection E as E. pose proof (dt_lt_isc o K Hn Hd k c Hk Hc). lia.
  - destruct D as (w & Nw & Ew). assert (known_var st inp con fixed "states_dot" w) as Kw by (left; split; [now right|]; apply nth_error_In in Nw; rewrite G2 in Nw; exact Nw).
    destruct (index_inj op g q s "states_dot" w k j (oo_dvo o K) Hgl ltac:(discriminate) (known_is g q Hv Hgl) (known_is _ _ Kw ltac:(discriminate)) Hs Hk E Ew) as (X & _ & _). contradiction.
Qed.
Lemma same_iff : forall x z, List.length x = num_dec op -> same_but_dots o x z <-> same_elsewhere o st inp con fixed x z.
Proof using B.
  intros x z L. pose proof (built_ok _ _ _ _ _ _ _ _ _ _ B) as (K & Hn & Hd & _ & _ & _ & G2 & _). split; intros [LL H]; (split; [exact LL|]).
  - intros g q s v Hv Hg Vx.
    assert (exists s', (s' < num_stages op)%nat /\ index_at op g q (Z.of_nat s') = index_at op g q (Z.of_nat s)) as (s' & Hs & Es).
    { destruct (String.eqb_spec g "global") as [->|Hgl]; [exists 0%nat; split; [apply num_stages_pos|reflexivity]|exists s; split; [now apply (stage_range o x g q s v)|reflexivity]]. }
    destruct (slot_of _ _ _ _ _ _ _ M con B g q s' Hv Hs) as (j & Ej & Hj). fold op in Ej, Hj. assert (index_at op g q (Z.of_nat s) = Ok j) as Ej' by congruence.
    apply (val_slot o z g q s j v Ej'). apply (val_slot o x g q s j v Ej') in Vx. pose proof (H j (not_dot g q s' j Hv Hg Hs Ej)) as E. unfold vget in E.
    rewrite (nth_error_nth' z 0) by (rewrite LL, L; exact Hj). rewrite E. rewrite <- Vx. symmetry. apply nth_error_nth'. rewrite L. exact Hj.
  - intros j Hj. destruct (Nat.lt_ge_cases j (num_dec op)) as [Hlt|Hge]; [|unfold vget; now rewrite !nth_overflow by lia].
    destruct (slot_cover _ _ _ _ _ _ _ M con B j Hlt) as (g & q & s & Hv & Hs & E). fold op in Hs, E. destruct (String.eqb_spec g "states_dot") as [->|Hg].
    + exfalso. destruct Hv as [[_ Hq]|[[X _]|[[X _]|(X & _)]]]; try discriminate. assert (In q (gnames_of (oc_op o) "states_dot")) as Hq' by (rewrite G2; exact Hq). apply In_nth_error in Hq'. destruct Hq' as (c & Hc). apply (Hj s c Hs). exists q. split; [exact Hc|exact E].
    + destruct (nth_error x j) as [v|] eqn:Ev; [|apply nth_error_None in Ev; rewrite L in Ev; lia]. pose proof (proj2 (val_slot o x g q s j v E) Ev) as Vx. pose proof (H g q s v Hv Hg Vx) as Vz. apply (val_slot o z g q s j v E) in Vz. unfold vget. rewrite (nth_error_nth _ _ _ Ev), (nth_error_nth _ _ _ Vz). reflexivity.
Qed.
Lemma same_sym : forall x z, List.length x = num_dec op -> same_elsewhere o st inp con fixed x z -> same_elsewhere o st inp con fixed z x.
Proof using B.
  intros x z L H. assert (List.length z = num_dec op) as Lz by (rewrite (proj1 H); exact L). apply (same_iff z x Lz). apply (same_iff x z L) in H. destruct H as [H1 H2]. split; [congruence|]. intros j Hj. symmetry. now apply H2.
Qed.
Lemma has_val : forall x g q s, List.length x = num_dec op -> known_var st inp con fixed g q -> (s < num_stages op)%nat -> exists v, val o x g q s v.
Proof using B.
  intros x g q s L Hv Hs. destruct (slot_of _ _ _ _ _ _ _ M con B g q s Hv Hs) as (j & Ej & Hj). fold op in Ej, Hj. destruct (nth_error x j) as [v|] eqn:Ev; [|apply nth_error_None in Ev; rewrite L in Ev; lia]. exists v. now apply (val_slot o x g q s j v Ej).
Qed.

(** the cost does not depend on the derivative variables *)
Lemma cost_same : forall t pen x z c, List.length x = num_dec op -> same_elsewhere o st inp con fixed x z -> (fixed <> None -> In "time" st) -> cost o inp t n fixed pen x c -> cost o inp t n fixed pen z c.
Proof using B.
  intros t pen x z c L [LL H] HT (tm & v & T & V & ->). exists tm, v. split; [|split; [|reflexivity]].
  - unfold time_spent, mesh_length in *. destruct fixed as [r|].
    + destruct T as (t0 & t1 & V0 & V1 & E). exists t0, t1. specialize (HT ltac:(discriminate)). split; [|split; [|exact E]]; apply H; try assumption; try discriminate; left; auto.
    + apply H; [right; right; right; auto|discriminate|exact T].
  - intros s k Hs Hk. apply H; [right; left; split; [reflexivity|now apply nth_In]|discriminate|now apply V].
Qed.
End Same.

(** ** settings *)
Lemma prefix_app : forall a b, String.prefix a (String.append a b) = true.
Proof. induction a as [|c a IH]; intro b; [now destruct b|]. cbn. destruct (Ascii.ascii_dec c c); [apply IH|contradiction]. Qed.
Lemma on_dots_svname : forall c, on_dots c = String.prefix "states_dot." (svname (k_g c) (k_n c)).
Proof. reflexivity. Qed.
Lemma prefix_dots : forall q, String.prefix "states_dot." (svname "states_dot" q) = true.
Proof. intro q. unfold svname. apply (prefix_app "states_dot." q). Qed.
Lemma prefix_other : forall st inp con fixed g q, known_var st inp con fixed g q -> g <> "states_dot" -> String.prefix "states_dot." (svname g q) = false.
Proof. intros st inp con fixed g q [[[-> | ->] _]|[[-> _]|[[-> _]|(-> & _)]]] H; try reflexivity. now contradiction H. Qed.
Lemma find_filter : forall A (f q : A -> bool) l, (forall x, f x = true -> q x = true) -> find f (filter q l) = find f l.
Proof. intros A f q l H. induction l as [|a l IH]; [reflexivity|]. cbn. destruct (q a) eqn:Eq; cbn; destruct (f a) eqn:Ef; auto. rewrite (H a Ef) in Eq. discriminate. Qed.
Lemma find_filter_none : forall A (f q : A -> bool) l, (forall x, f x = true -> q x = false) -> find f (filter q l) = None.
Proof. intros A f q l H. induction l as [|a l IH]; [reflexivity|]. cbn. destruct (q a) eqn:Eq; cbn; auto. destruct (f a) eqn:Ef; auto. rewrite (H a Ef) in Eq. discriminate. Qed.
Lemma filter_rev' : forall A (q : A -> bool) l, filter q (rev l) = rev (filter q l).
Proof. intros A q l. induction l as [|a l IH]; [reflexivity|]. cbn. rewrite filter_app, IH. cbn. destruct (q a); cbn; [reflexivity|]. now rewrite app_nil_r. Qed.
Lemma about_name : forall op g q s c, about op g q s c = true -> svname (k_g c) (k_n c) = svname g q.
Proof. intros op g q s c H. unfold about in H. apply andb_true_iff in H. now apply String.eqb_eq. Qed.
Lemma last_without : forall op g q s l, String.prefix "states_dot." (svname g q) = false -> last_about op g q s (without_dots l) = last_about op g q s l.
Proof.
  intros op g q s l H. unfold last_about, without_dots. rewrite <- filter_rev'. apply find_filter. intros c Hc. rewrite on_dots_svname, (about_name _ _ _ _ _ Hc), H. reflexivity.
Qed.
Lemma last_dots : forall op q s l, last_about op "states_dot" q s (without_dots l) = None.
Proof.
  intros op q s l. unfold last_about, without_dots. rewrite <- filter_rev'. apply find_filter_none. intros c Hc. rewrite on_dots_svname, (about_name _ _ _ _ _ Hc), prefix_dots. reflexivity.
Qed.
Lemma expected_dots : forall op l l' q s, expected op (without_dots l) (without_dots l') "states_dot" q s = (NegInf, PosInf).
Proof. intros. unfold expected. now rewrite !last_dots. Qed.
Lemma expected_other : forall op l l' g q s, String.prefix "states_dot." (svname g q) = false -> expected op (without_dots l) (without_dots l') g q s = expected op l l' g q s.
Proof. intros op l l' g q s H. unfold expected. now rewrite !last_without. Qed.
Lemma zero_on_dots : forall P (M : smodel P) con, filter (fun c => negb (on_dots c)) (map of_bound (zero_dots M con)) = [].
Proof.
  intros P M con. unfold zero_dots. induction (names_of M con "states_dot") as [|a l IH]; [reflexivity|]. cbn [map filter]. rewrite on_dots_svname. change (k_g _) with "states_dot". rewrite prefix_dots. exact IH.
Qed.
Lemma asked_without : forall P (M : smodel P) cfg (cs : list (scall P)), without_dots (bounds_asked (cf_bounds (config_after M cfg)) cs) = without_dots (bounds_asked (cf_bounds cfg) cs).
Proof.
  intros P M cfg cs. unfold without_dots, bounds_asked. cbn [config_after cf_bounds]. rewrite <- app_assoc, !map_app, !filter_app, zero_on_dots. reflexivity.
Qed.
