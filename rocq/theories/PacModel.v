(** Model of lumos/models/tires/pacejka.py: the MF5.2 tire.  Numbers are reals; a quotient with denominator 0 is no real number ([None]: NaN or infinity in the code), and so is
    everything computed from it.  tan, sqrt and arccos are total (tan has no pole at a floating point number; the other two are used inside their domains, C55). *)
From Verif Require Import Base RBase UtilsModel.
From Coq Require Export Rtrigo1 Ratan Rpower Rbasic_fun.

Definition odiv (a b : R) : option R := if Req_EM_T b 0 then None else Some (a / b).
Definition obind {A B} (x : option A) (f : A -> option B) : option B := match x with Some a => f a | None => None end.
Notation "'let?' x := e 'in' k" := (obind e (fun x => k)) (at level 200, x name, e at level 100, k at level 200, right associativity).
(** numpy sign *)
Definition nsign (x : R) : R := if Rlt_dec 0 x then 1 else if Rlt_dec x 0 then -1 else 0.

Section MF.
(** [p name] is self._params[name] *)
Variable p : string -> R.

(** pacejka.py:359-445 [_calculate_basic]; alpha_prime is used by Mz only *)
Record basic := { alpha_star : R; gamma_star : R; LMUX_star : R; LMUY_star : R; Fz0_prime : R; alpha_prime : option R; LMUX_prime : R; LMUY_prime : R; dfz : R }.
Definition calculate_basic (alpha Vcx gamma Fz : R) : option basic :=
  let Vsy := tan alpha * Vcx in
  let Vcy := Vsy in
  let Vc := sqrt (Vcx ^ 2 + Vcy ^ 2) in
  let Fz0_prime := p "LFZO" * p "FNOMIN" in
  let? dfz := odiv (Fz - Fz0_prime) Fz0_prime in
  let Vc_prime := Vc + p "epsilonv" in
  let alpha_prime := let? c := odiv Vcx Vc_prime in Some (acos c) in
  let Amu := 1 in
  let? LMUX_prime := odiv (Amu * p "LMUX") (1 + (Amu - 1) * p "LMUX") in
  let? LMUY_prime := odiv (Amu * p "LMUY") (1 + (Amu - 1) * p "LMUY") in
  Some {| alpha_star := alpha; gamma_star := gamma; LMUX_star := p "LMUX"; LMUY_star := p "LMUY"; Fz0_prime := Fz0_prime; alpha_prime := alpha_prime; LMUX_prime := LMUX_prime; LMUY_prime := LMUY_prime; dfz := dfz |}.

(** pacejka.py:447-532 [_calculate_Fx0]: (Fx0, mux, Kxk) *)
Definition calculate_Fx0 (b : basic) (kappa gamma Fz : R) : option R * R * R :=
  let zeta1 := 1 in
  let Cx := p "PCX1" * p "LCX" in
  let mux := (p "PDX1" + p "PDX2" * dfz b) * (1 - p "PDX3" * gamma ^ 2) * LMUX_star b in
  let Dx := mux * Fz * zeta1 in
  let Kxk := Fz * (p "PKX1" + p "PKX2" * dfz b) * exp (p "PKX3" * dfz b) * p "LKX" in
  let SHx := (p "PHX1" + p "PHX2" * dfz b) * p "LHX" in
  let SVx := Fz * (p "PVX1" + p "PVX2" * dfz b) * p "LVX" * LMUX_prime b * zeta1 in
  let kappax := kappa + SHx in
  let Ex := (p "PEX1" + p "PEX2" * dfz b + p "PEX3" * dfz b ^ 2) * (1 - p "PEX4" * nsign kappax) * p "LEX" in
  let Ex := Rmin Ex 1 in
  let Fx0 :=
    let? Bx := odiv Kxk (Cx * Dx + p "epsilonx" * nsign Dx) in
    let Bx_kappax := Bx * kappax in
    Some (Dx * sin (Cx * atan (Bx_kappax - Ex * (Bx_kappax - atan Bx_kappax))) + SVx) in
  (Fx0, mux, Kxk).

(** pacejka.py:534-590 [_calculate_Fx]: (Fx, Gxa) *)
Definition calculate_Fx (b : basic) (kappa : R) (Fx0 : option R) : option R * option R :=
  let Cxa := p "RCX1" in
  let Exa := p "REX1" + p "REX2" * dfz b in
  let Exa := Rmin Exa 1 in
  let SHxa := p "RHX1" in
  let Bxa := p "RBX1" * cos (atan (p "RBX2" * kappa)) * p "LXAL" in
  let alphas := alpha_star b + SHxa in
  let Bxa_SHxa := Bxa * SHxa in
  let Gxa0 := cos (Cxa * atan (Bxa_SHxa - Exa * (Bxa_SHxa - atan Bxa_SHxa))) in
  let Bxa_alphas := Bxa * alphas in
  let Gxa := odiv (cos (Cxa * atan (Bxa_alphas - Exa * (Bxa_alphas - atan Bxa_alphas)))) Gxa0 in
  (let? g := Gxa in let? f := Fx0 in Some (g * f), Gxa).

(** pacejka.py:592-702 [_calculate_Fy0]: (Fy0, muy, Kya, SHy, SVy, By, Cy) *)
Record lat := { Fy0 : option R; muy : R; Kya : option R; SHy : R; SVy : R; By : option R; Cy : R }.
Definition calculate_Fy0 (b : basic) (Fz : R) : lat :=
  let zeta2 := 1 in
  let zeta3 := 1 in
  let abs_gamma_star := Rabs (gamma_star b) in
  let Kya := let? q := odiv Fz (Fz0_prime b) in let? r := odiv q (p "PKY2") in Some (p "PKY1" * Fz0_prime b * (1 - p "PKY3" * abs_gamma_star) * sin (2 * atan r) * zeta3 * p "LKY") in
  let SVyg := Fz * (p "PVY3" + p "PVY4" * dfz b) * gamma_star b * LMUY_prime b * zeta2 in
  let SHy := (p "PHY1" + p "PHY2" * dfz b) * p "LHY" + p "PHY3" * gamma_star b in
  let SVy := Fz * (p "PVY1" + p "PVY2" * dfz b) * p "LVY" * LMUY_prime b * zeta2 + SVyg in
  let alphay := alpha_star b + SHy in
  let Cy := p "PCY1" * p "LCY" in
  let muy := (p "PDY1" + p "PDY2" * dfz b) * (1 - p "PDY3" * gamma_star b ^ 2) * LMUY_star b in
  let Dy := muy * Fz * zeta2 in
  let sign_alphay := nsign alphay in
  let Ey := (p "PEY1" + p "PEY2" * dfz b) * (1 - (p "PEY3" + p "PEY4" * gamma_star b) * sign_alphay) * p "LEY" in
  let Ey := Rmin Ey 1 in
  let signDy := nsign Dy in
  let By := let? K := Kya in odiv K (Cy * Dy + p "epsilony" * signDy) in
  let Fy0 := let? B := By in Some (Dy * sin (Cy * atan (B * alphay - Ey * (B * alphay - atan (B * alphay)))) + SVy) in
  {| Fy0 := Fy0; muy := muy; Kya := Kya; SHy := SHy; SVy := SVy; By := By; Cy := Cy |}.

(** pacejka.py:704-775 [calcluate_Fy]: (Fy, Gyk, SVyk) *)
Definition calculate_Fy (b : basic) (Fz kappa : R) (Fy0 : option R) (muy : R) : option R * option R * R :=
  let zeta2 := 1 in
  let DVyk := muy * Fz * (p "RVY1" + p "RVY2" * dfz b + p "RVY3" * gamma_star b) * cos (atan (p "RVY4" * alpha_star b)) * zeta2 in
  let SVyk := DVyk * sin (p "RVY5" * atan (p "RVY6" * kappa)) * p "LVYKA" in
  let SHyk := p "RHY1" + p "RHY2" * dfz b in
  let Eyk := p "REY1" + p "REY2" * dfz b in
  let Eyk := Rmin Eyk 1 in
  let Cyk := p "RCY1" in
  let Byk := p "RBY1" * cos (atan (p "RBY2" * (alpha_star b - p "RBY3"))) * p "LYKA" in
  let kappas := kappa + SHyk in
  let Byk_SHyk := Byk * SHyk in
  let Gyk0 := cos (Cyk * atan (Byk_SHyk - Eyk * (Byk_SHyk - atan Byk_SHyk))) in
  let Byk_kappas := Byk * kappas in
  let Gyk := odiv (cos (Cyk * atan (Byk_kappas - Eyk * (Byk_kappas - atan Byk_kappas)))) Gyk0 in
  (let? g := Gyk in let? f := Fy0 in Some (g * f + SVyk), Gyk, SVyk).

(** pacejka.py:777-1003 [_calculate_Mz] *)
Definition calculate_Mz (b : basic) (kappa alpha gamma Fz vx : R) (Fx : option R) (Kxk : R) (Fy : option R) (l : lat) (SVyk : R) : option R :=
  let R0 := p "UNLOADED_RADIUS" in
  let Fz0 := p "FNOMIN" in
  let SHt := p "QHZ1" + p "QHZ2" * dfz b + (p "QHZ3" + p "QHZ4" * dfz b) * gamma in
  let? Kya := Kya l in
  let sign_Kya := nsign Kya in
  let Kya_prime := Kya + p "epsilonk" * sign_Kya in
  let? SVy_K := odiv (SVy l) Kya_prime in
  let SHf := SHy l + SVy_K in
  let alphar := alpha + SHf in
  let alphat := alpha + SHt in
  let? R0_Fz0 := odiv R0 (Fz0_prime b) in
  let Dt := (p "QDZ1" + p "QDZ2" * dfz b) * (1 + p "QDZ3" * gamma + p "QDZ4" * gamma ^ 2) * Fz * R0_Fz0 * p "LTR" in
  let abs_gamma := Rabs gamma in
  let? Bt := odiv ((p "QBZ1" + p "QBZ2" * dfz b + p "QBZ3" * dfz b ^ 2) * (1 + p "QBZ4" * gamma + p "QBZ5" * abs_gamma) * p "LKY") (LMUY_star b) in
  let Ct := p "QCZ1" in
  let Et := (p "QEZ1" + p "QEZ2" * dfz b + p "QEZ3" * dfz b ^ 2) * (1 + (p "QEZ4" + p "QEZ5" * gamma) * (2 / PI) * atan (Bt * Ct * alphat)) in
  let zeta0 := 1 in
  let zeta2 := 1 in
  let zeta6 := 1 in
  let zeta7 := 1 in
  let zeta8 := 1 in
  let sign_Vcx := nsign vx in
  let Dr := Fz * R0 * ((p "QDZ6" + p "QDZ7" * dfz b) * p "LRES" * zeta2 + (p "QDZ8" + p "QDZ9" * dfz b) * gamma * zeta0) * LMUY_star b * sign_Vcx * cos alpha + zeta8 - 1 in
  let? L := odiv (p "QBZ9" * p "LKY") (LMUY_star b) in
  let? By := By l in
  let Br := (L + p "QBZ10" * By * Cy l) * zeta6 in
  let Cr := zeta7 in
  let sign_alphar := nsign alphar in
  let sign_alphat := nsign alphat in
  let? KK := odiv Kxk Kya_prime in
  let alphar_eq := atan (sqrt (tan alphar ^ 2 + KK ^ 2 * kappa ^ 2)) * sign_alphar in
  let alphat_eq := atan (sqrt (tan alphat ^ 2 + KK ^ 2 * kappa ^ 2)) * sign_alphat in
  let? Fy := Fy in
  let? Fy_Fz0 := odiv Fy Fz0 in
  let s := R0 * (p "SSZ1" + p "SSZ2" * Fy_Fz0 + (p "SSZ3" + p "SSZ4" * dfz b) * gamma) * p "LS" in
  let Mzr := Dr * cos (Cr * atan (Br * alphar_eq)) in
  let? alpha_prime := alpha_prime b in
  let t := Dt * cos (Ct * atan (Bt * alphat_eq - Et * (Bt * alphat_eq - atan (Bt * alphat_eq)))) * cos alpha_prime in
  let t := p "LFZO" * t in
  let? Fx := Fx in
  Some (- t * (Fy - SVyk) + Mzr + s * Fx).

(** pacejka.py:1005-1041 [_calculate_My] *)
Definition calculate_My (Fz vx : R) (Fx : option R) : option R :=
  let V0 := p "LONGVL" in
  let Fz0 := p "FNOMIN" in
  let R0 := p "UNLOADED_RADIUS" in
  let? Fx := Fx in
  let? f := odiv Fx Fz0 in
  let? v := odiv vx V0 in
  Some (- R0 * Fz * p "LMY" * (p "QSY1" + p "QSY2" * f + p "QSY3" * v + p "QSY4" * v ^ 4)).

(** pacejka.py:1043-1068 [_calculate_Mx] *)
Definition calculate_Mx (gamma Fz : R) (Fy : option R) : option R :=
  let Fz0 := p "FNOMIN" in
  let R0 := p "UNLOADED_RADIUS" in
  let? Fy := Fy in
  let? f := odiv Fy Fz0 in
  Some (R0 * Fz * p "LMX" * (p "QSX1" * p "LVMX" - p "QSX2" * gamma + p "QSX3" * f)).

(** pacejka.py:272-357 [_do_force_and_moments]; without [_calculate_basic] everything but the moments of the optimization mode is undefined *)
Record forces := { r_Fx : option R; r_Fy : option R; r_Mx : option R; r_My : option R; r_Mz : option R; r_Kxk : option R; r_Gxa : option R; r_Kya : option R; r_Gyk : option R }.
Definition do_force_and_moments (opt_mode : bool) (kappa alpha gamma vx Fz : R) : forces :=
  match calculate_basic alpha vx gamma Fz with
  | None => let M := if opt_mode then Some 0 else None in {| r_Fx := None; r_Fy := None; r_Mx := M; r_My := M; r_Mz := M; r_Kxk := None; r_Gxa := None; r_Kya := None; r_Gyk := None |}
  | Some b =>
    let '(Fx0, mux, Kxk) := calculate_Fx0 b kappa gamma Fz in
    let '(Fx, Gxa) := calculate_Fx b kappa Fx0 in
    let l := calculate_Fy0 b Fz in
    let '(Fy, Gyk, SVyk) := calculate_Fy b Fz kappa (Fy0 l) (muy l) in
    let Mx := if opt_mode then Some 0 else calculate_Mx gamma Fz Fy in
    let My := if opt_mode then Some 0 else calculate_My Fz vx Fx in
    let Mz := if opt_mode then Some 0 else calculate_Mz b kappa alpha gamma Fz vx Fx Kxk Fy l SVyk in
    {| r_Fx := Fx; r_Fy := Fy; r_Mx := Mx; r_My := My; r_Mz := Mz; r_Kxk := Some Kxk; r_Gxa := Gxa; r_Kya := Kya l; r_Gyk := Gyk |}
  end.
End MF.

(** the parameters that the functions look up, before they compute anything: pacejka.py:381-386, 453-476, 546-554, 598-632, 710-734, 799-859, 1015-1030, 1050-1062 *)
Definition basic_params : list string := ["FNOMIN"; "LFZO"; "LMUX"; "LMUY"; "epsilonv"].
Definition Fx0_params : list string := ["LCX"; "LEX"; "LKX"; "LHX"; "LVX"; "PCX1"; "PDX1"; "PDX2"; "PDX3"; "PEX1"; "PEX2"; "PEX3"; "PEX4"; "PKX1"; "PKX2"; "PKX3"; "PHX1"; "PHX2"; "PVX1"; "PVX2"; "epsilonx"].
Definition Fx_params : list string := ["LXAL"; "RBX1"; "RBX2"; "RCX1"; "REX1"; "REX2"; "RHX1"].
Definition Fy0_params : list string := ["LCY"; "LEY"; "LKY"; "LHY"; "LVY"; "PCY1"; "PDY1"; "PDY2"; "PDY3"; "PEY1"; "PEY2"; "PEY3"; "PEY4"; "PKY1"; "PKY2"; "PKY3"; "PHY1"; "PHY2"; "PHY3"; "PVY1"; "PVY2"; "PVY3"; "PVY4"; "epsilony"].
Definition Fy_params : list string := ["LYKA"; "LVYKA"; "RBY1"; "RBY2"; "RBY3"; "RCY1"; "REY1"; "REY2"; "RHY1"; "RHY2"; "RVY1"; "RVY2"; "RVY3"; "RVY4"; "RVY5"; "RVY6"].
Definition Mz_params : list string := ["epsilonk"; "UNLOADED_RADIUS"; "FNOMIN"; "LKY"; "LTR"; "LRES"; "LS"; "LFZO"; "QBZ1"; "QBZ2"; "QBZ3"; "QBZ4"; "QBZ5"; "QBZ9"; "QBZ10"; "QCZ1"; "QDZ1"; "QDZ2"; "QDZ3"; "QDZ4"; "QDZ6"; "QDZ7"; "QDZ8"; "QDZ9";
  "QEZ1"; "QEZ2"; "QEZ3"; "QEZ4"; "QEZ5"; "QHZ1"; "QHZ2"; "QHZ3"; "QHZ4"; "SSZ1"; "SSZ2"; "SSZ3"; "SSZ4"].
Definition My_params : list string := ["LONGVL"; "FNOMIN"; "UNLOADED_RADIUS"; "LMY"; "QSY1"; "QSY2"; "QSY3"; "QSY4"].
Definition Mx_params : list string := ["FNOMIN"; "UNLOADED_RADIUS"; "LVMX"; "LMX"; "QSX1"; "QSX2"; "QSX3"].
Definition need (names : list string) (d : dict R) : result unit := if forallb (fun n => dmem n d) names then Ok tt else Raise KeyError.
Definition prm (d : dict R) (n : string) : R := match dget n d with Some v => v | None => 0 end.
(** pacejka.py:221-270 [MF52.forward]; [params] is self._params.  Each function would fail on its own parameters; which one fails first does not matter *)
Definition mf_forward (opt_mode : bool) (params inputs : dict R) : result (dict (option R)) :=
  bind (lookup_err "gamma" inputs) (fun gamma =>
  bind (lookup_err "vx" inputs) (fun vx =>
  bind (lookup_err "Fz" inputs) (fun Fz =>
  bind (lookup_err "kappa" inputs) (fun kappa =>
  bind (lookup_err "alpha" inputs) (fun alpha =>
  bind (need (basic_params ++ Fx0_params ++ Fx_params ++ Fy0_params ++ Fy_params ++ if opt_mode then [] else Mx_params ++ My_params ++ Mz_params) params) (fun _ =>
  let r := do_force_and_moments (prm params) opt_mode kappa alpha gamma vx Fz in
  Ok [("Fx", r_Fx r); ("Fy", r_Fy r); ("Mx", r_Mx r); ("My", r_My r); ("Mz", r_Mz r); ("Kxk", r_Kxk r); ("Gxa", r_Gxa r); ("Kya", r_Kya r); ("Gyk", r_Gyk r);
      ("GSum", let? g := r_Gyk r in let? h := r_Gxa r in Some (sqrt (g ^ 2 + h ^ 2)))])))))).
(** pacejka.py:10-20: the declared outputs *)
Definition mf_outputs : list string := ["Fx"; "Fy"; "Mx"; "My"; "Mz"; "Kxk"; "Gxa"; "Kya"; "Gyk"; "GSum"].
(** pacejka.py:64-219 [get_default_params] *)
Definition mf_default : dict R :=
  [("FILE_VERSION", 3); ("VXLOW", 1); ("LONGVL", 15); ("UNLOADED_RADIUS", 4 / 10); ("WIDTH", 235 / 1000); ("RIM_RADIUS", 2032 / 10000); ("RIM_WIDTH", 1778 / 10000); ("VERTICAL_STIFFNESS", 463000);
   ("VERTICAL_DAMPING", 500); ("BREFF", 84 / 10); ("DREFF", 27 / 100); ("FREFF", 7 / 100); ("FNOMIN", 94166 / 10); ("KPUMIN", (-15) / 10); ("KPUMAX", 15 / 10); ("ALPMIN", (-15) / 10);
   ("ALPMAX", 15 / 10); ("CAMMIN", (-2634) / 10000); ("CAMMAX", 26395 / 100000); ("FZMIN", 100); ("FZMAX", 204698 / 10); ("LFZO", 1); ("LCX", 1); ("LMUX", 1); ("LEX", 1); ("LKX", 1); ("LHX", 1);
   ("LVX", 1); ("LGAX", 1); ("LCY", 1); ("LMUY", 1); ("LEY", 1); ("LKY", 1); ("LHY", 1); ("LVY", 1); ("LGAY", 1); ("LTR", 1); ("LRES", 1); ("LGAZ", 1); ("LXAL", 1); ("LYKA", 1); ("LVYKA", 1);
   ("LS", 1); ("LSGKP", 1); ("LSGAL", 1); ("LGYR", 1); ("LMX", 1); ("LVMX", 1); ("LMY", 1); ("PCX1", 13605 / 10000); ("PDX1", 885 / 1000); ("PDX2", (-5653) / 100000); ("PDX3", (-8768) / 1000);
   ("PEX1", (-13155) / 100000); ("PEX2", (-475) / 1000); ("PEX3", (-13126) / 10000); ("PEX4", (-1685) / 1000); ("PKX1", 16675 / 1000); ("PKX2", (-4552) / 100000); ("PKX3", 4205 / 10000);
   ("PHX1", 8731 / 100000000); ("PHX2", (-11733) / 10000000); ("PVX1", 1913 / 100000); ("PVX2", 2654 / 100000); ("RBX1", 9509 / 1000); ("RBX2", (-951) / 100); ("RCX1", 10061 / 10000);
   ("REX1", (-19815) / 10000); ("REX2", (-4552) / 1000); ("RHX1", 10039 / 1000000); ("PTX1", 11898 / 10000); ("PTX2", (-6148) / 10000000); ("PTX3", (-3717) / 10000); ("QSX1", (-3093) / 1000000);
   ("QSX2", 6038 / 10000); ("QSX3", 25405 / 1000000); ("PCY1", 1889 / 1000); ("PDY1", 8271 / 10000); ("PDY2", (-2306) / 10000); ("PDY3", (-7088) / 1000); ("PEY1", 4585 / 10000);
   ("PEY2", (-21823) / 100000); ("PEY3", (-3872) / 10000); ("PEY4", 396 / 100); ("PKY1", (-291) / 10); ("PKY2", 7576 / 1000); ("PKY3", 944 / 1000); ("PHY1", 4476 / 1000000);
   ("PHY2", 25996 / 10000000); ("PHY3", 6973 / 1000000); ("PVY1", 5978 / 1000000); ("PVY2", 8146 / 1000000); ("PVY3", (-4066) / 10000); ("PVY4", (-4417) / 10000); ("RBY1", 5042 / 1000);
   ("RBY2", 4858 / 1000); ("RBY3", 6116 / 100000); ("RCY1", 10642 / 10000); ("REY1", (-9207) / 10000); ("REY2", (-4334) / 10000); ("RHY1", (-9546) / 10000000); ("RHY2", 3506 / 100000000);
   ("RVY1", (-2541) / 100000); ("RVY2", 2259 / 100000); ("RVY3", (-9322) / 10000); ("RVY4", 2116 / 100); ("RVY5", 19 / 10); ("RVY6", (-15552) / 1000); ("PTY1", 16245 / 10000);
   ("PTY2", 28506 / 10000); ("QSY1", 1 / 100); ("QSY2", 0); ("QSY3", 0); ("QSY4", 0); ("QBZ1", 6035 / 1000); ("QBZ2", (-8902) / 10000); ("QBZ3", 11858 / 10000); ("QBZ4", 887 / 10000);
   ("QBZ5", (-2598) / 10000); ("QBZ9", 732 / 100); ("QBZ10", 0); ("QCZ1", 16637 / 10000); ("QDZ1", 7618 / 100000); ("QDZ2", (-2726) / 100000); ("QDZ3", 5106 / 10000); ("QDZ4", 275 / 10);
   ("QDZ6", (-12362) / 10000000); ("QDZ7", (-3485) / 1000000); ("QDZ8", (-10836) / 100000); ("QDZ9", (-3984) / 100000); ("QEZ1", (-4218) / 100000); ("QEZ2", 2656 / 1000000); ("QEZ3", 0);
   ("QEZ4", 13648 / 10000); ("QEZ5", (-993) / 10); ("QHZ1", 19396 / 1000000); ("QHZ2", (-17907) / 10000000); ("QHZ3", 9319 / 100000); ("QHZ4", (-3752) / 100000); ("SSZ1", 9003 / 1000000);
   ("SSZ2", (-11339) / 1000000); ("SSZ3", 6903 / 10000); ("SSZ4", (-7046) / 10000); ("QTZ1", 0); ("MBELT", 0); ("epsilonv", 1 / 1000000); ("epsilonx", 1 / 1000); ("epsilonk", 1 / 1000000);
   ("epsilony", 1 / 1000)].
