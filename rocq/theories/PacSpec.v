(** The MF5.2 equations in the order of the textbook (Pacejka, Tire and Vehicle Dynamics, 4.3.2), for a tire with coefficients [p], as relations between the quantities: nothing is
    divided by zero. *)
From Coq Require Import Ratan Rpower.
From Verif Require Import Base RBase.

Definition sign_of (x s : R) : Prop := (0 < x -> s = 1) /\ (x < 0 -> s = -1) /\ (x = 0 -> s = 0).
(** the curves: [sin (C bend)] rises through 0 with slope C and peaks at 1, [cos (C bend)] is 1 at 0; curvatures above 1 count as 1 *)
Definition bend (E x : R) : R := atan (x - Rmin 1 E * (x - atan x)).
Definition curve (C E x : R) : R := sin (C * bend E x).
Definition hill (C E x : R) : R := cos (C * bend E x).

Section Tire.
Variable p : string -> R.
(** relative change [f] of the load against the nominal one *)
Definition load_change (Fz f : R) : Prop := p "LFZO" * p "FNOMIN" <> 0 /\ Fz = p "LFZO" * p "FNOMIN" * (1 + f).

(** longitudinal force, slip stiffness, weight of combined slip *)
Definition long_peak (f gamma Fz : R) : R := (p "PDX1" + p "PDX2" * f) * (1 - p "PDX3" * (gamma * gamma)) * p "LMUX" * Fz.
Definition long_shift (f : R) : R := (p "PHX1" + p "PHX2" * f) * p "LHX".
Definition long_offset (f Fz : R) : R := Fz * (p "PVX1" + p "PVX2" * f) * p "LVX" * p "LMUX".
Definition long_curvature (f side : R) : R := (p "PEX1" + p "PEX2" * f + p "PEX3" * (f * f)) * (1 - p "PEX4" * side) * p "LEX".
Definition long_stiffness (f Fz : R) : R := Fz * (p "PKX1" + p "PKX2" * f) * exp (p "PKX3" * f) * p "LKX".
Definition longitudinal (f kappa alpha gamma Fz Fx K G : R) : Prop :=
  let D := long_peak f gamma Fz in let C := p "PCX1" * p "LCX" in let x := kappa + long_shift f in
  let B' := p "RBX1" * p "LXAL" / sqrt (1 + (p "RBX2" * kappa) * (p "RBX2" * kappa)) in let E' := p "REX1" + p "REX2" * f in
  exists sD sx B F0, sign_of D sD /\ sign_of x sx /\ K = long_stiffness f Fz /\
    C * D + p "epsilonx" * sD <> 0 /\ B * (C * D + p "epsilonx" * sD) = K /\ F0 = D * curve C (long_curvature f sx) (B * x) + long_offset f Fz /\
    hill (p "RCX1") E' (B' * p "RHX1") <> 0 /\ G * hill (p "RCX1") E' (B' * p "RHX1") = hill (p "RCX1") E' (B' * (alpha + p "RHX1")) /\ Fx = G * F0.

(** lateral force, cornering stiffness, weight of combined slip; shifts, slope factor and the side force from longitudinal slip are used again for the aligning torque *)
Definition lat_friction (f gamma : R) : R := (p "PDY1" + p "PDY2" * f) * (1 - p "PDY3" * (gamma * gamma)) * p "LMUY".
Definition lat_shift (f gamma : R) : R := (p "PHY1" + p "PHY2" * f) * p "LHY" + p "PHY3" * gamma.
Definition lat_offset (f gamma Fz : R) : R := Fz * p "LMUY" * ((p "PVY1" + p "PVY2" * f) * p "LVY" + (p "PVY3" + p "PVY4" * f) * gamma).
Definition lat_curvature (f gamma side : R) : R := (p "PEY1" + p "PEY2" * f) * (1 - (p "PEY3" + p "PEY4" * gamma) * side) * p "LEY".
(** the stiffness has its largest value PKY1 LFZO FNOMIN LKY at the load PKY2 LFZO FNOMIN *)
Definition lat_stiffness (gamma Fz K : R) : Prop :=
  p "PKY2" <> 0 /\ exists r, r * (p "LFZO" * p "FNOMIN" * p "PKY2") = Fz /\ K * (1 + r * r) = p "PKY1" * (p "LFZO" * p "FNOMIN") * (1 - p "PKY3" * Rabs gamma) * p "LKY" * (2 * r).
Definition slip_side_force (f kappa alpha gamma Fz : R) : R :=
  lat_friction f gamma * Fz * (p "RVY1" + p "RVY2" * f + p "RVY3" * gamma) * p "LVYKA" * sin (p "RVY5" * atan (p "RVY6" * kappa)) / sqrt (1 + (p "RVY4" * alpha) * (p "RVY4" * alpha)).
Definition lateral (f kappa alpha gamma Fz Fy K G B : R) : Prop :=
  let D := lat_friction f gamma * Fz in let C := p "PCY1" * p "LCY" in let x := alpha + lat_shift f gamma in
  let B' := p "RBY1" * p "LYKA" / sqrt (1 + (p "RBY2" * (alpha - p "RBY3")) * (p "RBY2" * (alpha - p "RBY3"))) in let E' := p "REY1" + p "REY2" * f in let h := p "RHY1" + p "RHY2" * f in
  exists sD sx F0, sign_of D sD /\ sign_of x sx /\ lat_stiffness gamma Fz K /\
    C * D + p "epsilony" * sD <> 0 /\ B * (C * D + p "epsilony" * sD) = K /\ F0 = D * curve C (lat_curvature f gamma sx) (B * x) + lat_offset f gamma Fz /\
    hill (p "RCY1") E' (B' * h) <> 0 /\ G * hill (p "RCY1") E' (B' * h) = hill (p "RCY1") E' (B' * (kappa + h)) /\ Fy = G * F0 + slip_side_force f kappa alpha gamma Fz.

(** moments *)
Definition overturning (gamma Fz Fy Mx : R) : Prop :=
  p "FNOMIN" <> 0 /\ Mx * p "FNOMIN" = p "UNLOADED_RADIUS" * Fz * p "LMX" * (p "FNOMIN" * (p "QSX1" * p "LVMX" - p "QSX2" * gamma) + p "QSX3" * Fy).
Definition rolling (Fz vx Fx My : R) : Prop :=
  p "FNOMIN" <> 0 /\ p "LONGVL" <> 0 /\ exists v, v * p "LONGVL" = vx /\
  My = - (p "UNLOADED_RADIUS" * Fz * p "LMY" * (p "QSY1" + p "QSY2" * (Fx / p "FNOMIN") + p "QSY3" * v + p "QSY4" * (v * v * (v * v)))).
(** the slip angle that, alone, is equivalent to the slip angle [a] together with the longitudinal slip [kappa], for the ratio [k] of the stiffnesses *)
Definition equivalent_angle (k kappa a e : R) : Prop := exists s, sign_of a s /\ e = s * atan (sqrt (tan a * tan a + (k * kappa) * (k * kappa))).
Definition aligning (f kappa alpha gamma Fz vx Fx Kx Fy Ky B Mz : R) : Prop :=
  let R0 := p "UNLOADED_RADIUS" in let SHt := p "QHZ1" + p "QHZ2" * f + (p "QHZ3" + p "QHZ4" * f) * gamma in
  let Bt := (p "QBZ1" + p "QBZ2" * f + p "QBZ3" * (f * f)) * (1 + p "QBZ4" * gamma + p "QBZ5" * Rabs gamma) * (p "LKY" / p "LMUY") in
  let Br := p "QBZ9" * (p "LKY" / p "LMUY") + p "QBZ10" * B * (p "PCY1" * p "LCY") in
  let Et := (p "QEZ1" + p "QEZ2" * f + p "QEZ3" * (f * f)) * (1 + (p "QEZ4" + p "QEZ5" * gamma) * (atan (Bt * p "QCZ1" * (alpha + SHt)) / (PI / 2))) in
  let speed := sqrt (vx * vx + (vx * tan alpha) * (vx * tan alpha)) in
  exists sK sv ar at_ K', sign_of Ky sK /\ sign_of vx sv /\ K' = Ky + p "epsilonk" * sK /\ K' <> 0 /\ p "LMUY" <> 0 /\ p "FNOMIN" <> 0 /\ speed + p "epsilonv" <> 0 /\
    equivalent_angle (Kx / K') kappa (alpha + (lat_shift f gamma + lat_offset f gamma Fz / K')) ar /\ equivalent_angle (Kx / K') kappa (alpha + SHt) at_ /\
    (* pneumatic trail; its curvature is not limited *)
    let trail := (p "QDZ1" + p "QDZ2" * f) * (1 + p "QDZ3" * gamma + p "QDZ4" * (gamma * gamma)) * Fz * (R0 / (p "LFZO" * p "FNOMIN")) * p "LTR" * p "LFZO"
      * cos (p "QCZ1" * atan (Bt * at_ - Et * (Bt * at_ - atan (Bt * at_)))) * (vx / (speed + p "epsilonv")) in
    let residual := Fz * R0 * ((p "QDZ6" + p "QDZ7" * f) * p "LRES" + (p "QDZ8" + p "QDZ9" * f) * gamma) * p "LMUY" * sv * cos alpha / sqrt (1 + (Br * ar) * (Br * ar)) in
    let lever := R0 * (p "SSZ1" + p "SSZ2" * (Fy / p "FNOMIN") + (p "SSZ3" + p "SSZ4" * f) * gamma) * p "LS" in
    Mz = residual + lever * Fx - trail * (Fy - slip_side_force f kappa alpha gamma Fz).

(** all outputs; in optimization mode the moments are 0 *)
Definition mf52 (opt_mode : bool) (Fz kappa alpha vx gamma : R) (Fx Fy Mx My Mz Kxk Gxa Kya Gyk GSum : R) : Prop :=
  exists f B, load_change Fz f /\ longitudinal f kappa alpha gamma Fz Fx Kxk Gxa /\ lateral f kappa alpha gamma Fz Fy Kya Gyk B /\ (0 <= GSum /\ GSum * GSum = Gyk * Gyk + Gxa * Gxa) /\
    if opt_mode then Mx = 0 /\ My = 0 /\ Mz = 0 else overturning gamma Fz Fy Mx /\ rolling Fz vx Fx My /\ aligning f kappa alpha gamma Fz vx Fx Kxk Fy Kya B Mz.
End Tire.

(** the coefficients that [forward] looks up *)
Definition force_names : list string :=
  ["FNOMIN"; "LFZO"; "LMUX"; "LMUY"; "epsilonv"; "LCX"; "LEX"; "LKX"; "LHX"; "LVX"; "PCX1"; "PDX1"; "PDX2"; "PDX3"; "PEX1"; "PEX2"; "PEX3"; "PEX4"; "PKX1"; "PKX2"; "PKX3"; "PHX1"; "PHX2"; "PVX1"; "PVX2"; "epsilonx";
   "LXAL"; "RBX1"; "RBX2"; "RCX1"; "REX1"; "REX2"; "RHX1"; "LCY"; "LEY"; "LKY"; "LHY"; "LVY"; "PCY1"; "PDY1"; "PDY2"; "PDY3"; "PEY1"; "PEY2"; "PEY3"; "PEY4"; "PKY1"; "PKY2"; "PKY3"; "PHY1"; "PHY2"; "PHY3";
   "PVY1"; "PVY2"; "PVY3"; "PVY4"; "epsilony"; "LYKA"; "LVYKA"; "RBY1"; "RBY2"; "RBY3"; "RCY1"; "REY1"; "REY2"; "RHY1"; "RHY2"; "RVY1"; "RVY2"; "RVY3"; "RVY4"; "RVY5"; "RVY6"].
Definition moment_names : list string :=
  ["UNLOADED_RADIUS"; "LONGVL"; "LMX"; "LVMX"; "QSX1"; "QSX2"; "QSX3"; "LMY"; "QSY1"; "QSY2"; "QSY3"; "QSY4"; "epsilonk"; "LTR"; "LRES"; "LS"; "QBZ1"; "QBZ2"; "QBZ3"; "QBZ4"; "QBZ5"; "QBZ9"; "QBZ10"; "QCZ1";
   "QDZ1"; "QDZ2"; "QDZ3"; "QDZ4"; "QDZ6"; "QDZ7"; "QDZ8"; "QDZ9"; "QEZ1"; "QEZ2"; "QEZ3"; "QEZ4"; "QEZ5"; "QHZ1"; "QHZ2"; "QHZ3"; "QHZ4"; "SSZ1"; "SSZ2"; "SSZ3"; "SSZ4"].
(** what [params] says about a coefficient *)
Definition given (params : dict R) (opt_mode : bool) (p : string -> R) : Prop := forall n, In n (force_names ++ if opt_mode then [] else moment_names) -> dget n params = Some (p n).
(** the same tire on the other side of the car: the coefficients of the effects that are not symmetric change their sign *)
Definition sided : list string := ["PHY1"; "PHY2"; "PVY1"; "PVY2"; "PEY3"; "RHX1"; "RVY1"; "RVY2"; "RBY3"; "QSX1"; "QHZ1"; "QHZ2"; "QDZ3"; "QDZ6"; "QDZ7"; "QBZ4"; "QEZ4"; "SSZ1"].
Definition other_tire (params other : dict R) : Prop := forall n, dget n other = match dget n params with Some v => Some (if existsb (String.eqb n) sided then - v else v) | None => None end.
