(** Model of lumos/models/tires/perantoni.py.  Numbers are reals; the parameter dictionary is a record with the twelve keys of the default parameters. *)
From Verif Require Import Base RBase.
From Coq Require Export Rtrigo1 Ratan.

Record tparams := { Fz1 : R; Fz2 : R; mux1 : R; mux2 : R; kappa1 : R; kappa2 : R; muy1 : R; muy2 : R; alpha1 : R; alpha2 : R; Qx : R; Qy : R }.
Record tforce := { Fx : R; Fy : R; Mx : R; My : R; Mz : R }.
(** perantoni.py:70-77: linear in the load between (Fz1, a) and (Fz2, b) *)
Definition load_interp (p : tparams) (Fz a b : R) : R := let interp_val := (Fz - Fz1 p) / (Fz2 p - Fz1 p) in interp_val * (b - a) + a.
Definition mux_max (p : tparams) (Fz : R) : R := load_interp p Fz (mux1 p) (mux2 p).
Definition muy_max (p : tparams) (Fz : R) : R := load_interp p Fz (muy1 p) (muy2 p).
Definition kappa_max (p : tparams) (Fz : R) : R := load_interp p Fz (kappa1 p) (kappa2 p).
Definition alpha_max (p : tparams) (Fz : R) : R := load_interp p Fz (alpha1 p) (alpha2 p).
(** perantoni.py:82-84 *)
Definition jitter : R := 1 / 1000000.
Definition rho (alpha_n kappa_n : R) : R := sqrt (alpha_n ^ 2 + kappa_n ^ 2 + jitter).
(** perantoni.py:86-90: the factor of mux_max (muy_max) *)
Definition shape (Q rho : R) : R := let S := PI / 2 / atan Q in sin (Q * atan (S * rho)).
(** perantoni.py:46-97 [forward]; the inputs vx and gamma are not used *)
Definition perantoni (p : tparams) (Fz kappa alpha vx gamma : R) : tforce :=
  let kappa_n := kappa / kappa_max p Fz in
  let alpha_n := alpha / alpha_max p Fz in
  let r := rho alpha_n kappa_n in
  let mux := mux_max p Fz * shape (Qx p) r in
  let muy := muy_max p Fz * shape (Qy p) r in
  {| Fx := mux * Fz * kappa_n / r; Fy := - muy * Fz * alpha_n / r; Mx := 0; My := 0; Mz := 0 |}.
(** perantoni.py:99-118 [get_default_params]; np.deg2rad is multiplication by pi/180 *)
Definition default_tire : tparams :=
  {| Fz1 := 2000; Fz2 := 6000; mux1 := 175 / 100; mux2 := 14 / 10; kappa1 := 11 / 100; kappa2 := 10 / 100; muy1 := 180 / 100; muy2 := 145 / 100;
     alpha1 := 9 * (PI / 180); alpha2 := 8 * (PI / 180); Qx := 19 / 10; Qy := 19 / 10 |}.
