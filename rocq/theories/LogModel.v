(** Model of the iteration logging of a problem: lumos/optimal_control/scaled_mesh_ocp.py:191-204, 793-1013 and nlp.py:445-465. *)
From Verif Require Import Base RBase.

(** one line of a result file: the iteration number, the mesh column, the stage variables and all the other columns (model outputs, constraint values) *)
Record row := { r_iter : nat; r_mesh : R; r_vars : list R; r_other : list R }.
(** the arguments of the solver's callback, scaled_mesh_ocp.py:64-76; [m_rest] are the nine numbers that are only recorded *)
Record metric := { m_alg : nat; m_iter : nat; m_rest : list R }.
(** one line of metrics_history.csv; a line that was added by an assignment to a missing label has no metric; the columns
    max_violation_con_name / max_violation_mesh are one value of type V, [None] is "NotRecorded" / -1 *)
Record mrow (V : Type) := { h_metric : option metric; h_viol : option V }.
Arguments h_metric {V}. Arguments h_viol {V}.

(** a directory of numbered files iter_<n>.csv *)
Fixpoint nget {A} (k : nat) (d : list (nat * A)) : option A := match d with [] => None | (k', v) :: r => if Nat.eqb k k' then Some v else nget k r end.
Fixpoint nset {A} (k : nat) (v : A) (d : list (nat * A)) : list (nat * A) := match d with [] => [(k, v)] | (k', v') :: r => if Nat.eqb k k' then (k', v) :: r else (k', v') :: nset k v r end.
Fixpoint ndel {A} (k : nat) (d : list (nat * A)) : list (nat * A) := match d with [] => [] | (k', v') :: r => if Nat.eqb k k' then r else (k', v') :: ndel k r end.

(** pandas sort_values(["iter", "mesh"]): a stable sort *)
Definition row_leb (a b : row) : bool := if Nat.ltb (r_iter a) (r_iter b) then true else if Nat.eqb (r_iter a) (r_iter b) then (if Rle_dec (r_mesh a) (r_mesh b) then true else false) else false.
Fixpoint insert_row (a : row) (l : list row) : list row := match l with [] => [a] | b :: r => if row_leb a b then a :: b :: r else b :: insert_row a r end.
Fixpoint sort_rows (l : list row) : list row := match l with [] => [] | a :: r => insert_row a (sort_rows r) end.

Section Log.
Context {V : Type}.
Variables (nmesh scales : list R) (nvs : nat) (mesh_scale : list R -> R) (other : list R -> nat -> list R) (viol : list row -> V).
(** logging_config.log_every_nth_iter; [None]: no logging_config *)
Variable cfg : option Z.

Record lst := { l_num : option nat;                 (* self._num_iter, nlp.py:447 *)
  l_x : option (list R);                            (* self._last_iter_dec_var (scaled), nlp.py:449 *)
  l_files : list (nat * list row);                  (* iter_<n>.csv *)
  l_results : option (list row);                    (* results.csv *)
  l_all : option (list row);                        (* all_iters.parquet *)
  l_hist : list metric;                             (* self._metrics_history_list *)
  l_metrics : option (list (mrow V)) }.             (* metrics_history.csv *)
(** scaled_mesh_ocp.py:793-804 *)
Definition fresh : lst := {| l_num := None; l_x := None; l_files := []; l_results := None; l_all := None; l_hist := []; l_metrics := None |}.

(** scaled_mesh_ocp.py:897-997 [_create_result_df]: one row per stage; the stage variables are unscaled (900, 965-968), the mesh column uses the
    scaled vector (992).  Model outputs and constraints are the abstract function [other] of the scaled vector. *)
Definition result_rows (x : list R) (i : nat) : list row :=
  map (fun k => {| r_iter := i; r_mesh := vget k nmesh * mesh_scale x; r_vars := firstn nvs (skipn (k * nvs) (vmul x scales)); r_other := other x k |}) (seq 0 (List.length nmesh)).

(** [iter_num % log_every_nth_iter == 0] with [log_every_nth_iter > 0] *)
Definition due (k : Z) (i : nat) : bool := (Z.gtb k 0 && Z.eqb (Z.of_nat i mod k) 0)%bool.

(** scaled_mesh_ocp.py:810-831 [_log]; [None * scales] is a TypeError *)
Definition log (m : metric) (s : lst) : lst * result unit :=
  match cfg with
  | None => (s, Ok tt)
  | Some k =>
      let s1 := {| l_num := l_num s; l_x := l_x s; l_files := l_files s; l_results := l_results s; l_all := l_all s; l_hist := l_hist s ++ [m]; l_metrics := l_metrics s |} in
      if due k (m_iter m) then
        match l_x s with
        | None => (s1, Raise TypeError)
        | Some x => ({| l_num := l_num s1; l_x := l_x s1; l_files := nset (m_iter m) (result_rows x (m_iter m)) (l_files s1); l_results := l_results s1; l_all := l_all s1; l_hist := l_hist s1; l_metrics := l_metrics s1 |}, Ok tt)
        end
      else (s1, Ok tt)
  end.
Definition set_num (i : nat) (s : lst) : lst := {| l_num := Some i; l_x := l_x s; l_files := l_files s; l_results := l_results s; l_all := l_all s; l_hist := l_hist s; l_metrics := l_metrics s |}.
Definition set_x (x : list R) (s : lst) : lst := {| l_num := l_num s; l_x := Some x; l_files := l_files s; l_results := l_results s; l_all := l_all s; l_hist := l_hist s; l_metrics := l_metrics s |}.
(** scaled_mesh_ocp.py:999-1013 [intermediate] *)
Definition skipped (m : metric) (s : lst) : bool := (Nat.eqb (m_alg m) 0 && match l_num s with Some n => Nat.eqb (m_iter m) n | None => false end)%bool.
Definition intermediate (m : metric) (s : lst) : lst * result unit :=
  if skipped m s then (s, Ok tt) else match log m s with (s', Ok _) => (set_num (m_iter m) s', Ok tt) | (s', Raise e) => (s', Raise e) end.

(** what the solver does with the problem during one solve, as far as logging is concerned: evaluate the objective (nlp.py:457-464) or call back *)
Inductive event := EObj (x : list R) | ECall (m : metric).
Definition step (e : event) (s : lst) : lst * result unit := match e with EObj x => (set_x x s, Ok tt) | ECall m => intermediate m s end.
Fixpoint run (es : list event) (s : lst) : lst * result unit :=
  match es with [] => (s, Ok tt) | e :: r => match step e s with (s', Ok _) => run r s' | (s', Raise ex) => (s', Raise ex) end end.

(** [metrics_history_df.loc[i, ...] = v]: a label beyond the frame adds a line *)
Definition set_viol (i : nat) (v : V) (h : list (nat * mrow V)) : list (nat * mrow V) :=
  match nget i h with Some r => nset i {| h_metric := h_metric r; h_viol := Some v |} h | None => h ++ [(i, {| h_metric := None; h_viol := Some v |})] end.
(** scaled_mesh_ocp.py:833-895 [_log_final_iter]; [glob] is the order in which the directory lists the files.  The iteration number of a file is the
    one in its first row.  Simplification: without any callback ([l_num] is None) the code fails for a positive period; for period 0 it would write
    a missing iteration number, here it fails too. *)
Definition log_final (glob : list (nat * list row) -> list (nat * list row)) (s : lst) : lst * result unit :=
  match cfg with
  | None => (s, Ok tt)
  | Some k =>
      match l_x s, l_num s with
      | Some x, Some n =>
          let res := result_rows x n in
          let s1 := {| l_num := l_num s; l_x := l_x s; l_files := l_files s; l_results := Some res; l_all := l_all s; l_hist := l_hist s; l_metrics := l_metrics s |} in
          let hist := combine (seq 0 (List.length (l_hist s))) (map (fun m => {| h_metric := Some m; h_viol := None |}) (l_hist s)) in
          if Z.gtb k 0 then
            if due k n && match nget n (l_files s) with None => true | Some _ => false end then (s1, Raise FileNotFoundError) else
            let files := if due k n then ndel n (l_files s) else l_files s in
            let dfs := map snd (glob files) ++ [res] in
            let hist' := fold_left (fun h df => set_viol (match df with r :: _ => r_iter r | [] => 0%nat end) (viol df) h) dfs hist in
            ({| l_num := l_num s; l_x := l_x s; l_files := []; l_results := Some res; l_all := Some (sort_rows (concat dfs)); l_hist := l_hist s; l_metrics := Some (map snd hist') |}, Ok tt)
          else ({| l_num := l_num s; l_x := l_x s; l_files := l_files s; l_results := Some res; l_all := l_all s; l_hist := l_hist s; l_metrics := Some (map snd hist) |}, Ok tt)
      | _, _ => (s, Raise TypeError)
      end
  end.
(** scaled_mesh_ocp.py:191-204 [solve]: the solver runs, then the final logging; with an error status (nlp.py:616-623) a RuntimeError comes first *)
Definition solve (glob : list (nat * list row) -> list (nat * list row)) (failed : bool) (es : list event) (s : lst) : lst * result unit :=
  match run es s with
  | (s', Raise e) => (s', Raise e)
  | (s', Ok _) => if failed then (s', Raise RuntimeError) else log_final glob s'
  end.
End Log.
Arguments lst V : clear implicits.
