(** Model of the seismic parameter classes: src/Modelparameter/ModelparameterSeismic.cpp, Acoustic.cpp, SH.cpp, Elastic.cpp,
    ViscoSH.cpp, Viscoelastic.cpp.  Vectors are lists of real numbers; vectors of different length in one operation make LAMA
    throw.  Divisions of reals that the code leaves unprotected and that may divide by zero are noted at the definition. *)
From Coq Require Import Reals.
From Verif Require Import Base M_Grid M_Average M_Common.
Open Scope Z_scope.

Inductive kind := Acoustic | SH | Elastic | ViscoSH | Viscoelastic.
(** Which velocities and attenuation parameters a class has. *)
Definition hasP (k : kind) : bool := match k with Acoustic | Elastic | Viscoelastic => true | _ => false end.
Definition hasS (k : kind) : bool := match k with Acoustic => false | _ => true end.
Definition visco (k : kind) : bool := match k with ViscoSH | Viscoelastic => true | _ => false end.

(** The parameters a user sets.  cfreq (centerFrequencyCPML) has no initial value (Modelparameter.hpp 300): None. *)
Record params := mkP { vP : list R; vS : list R; rho : list R; tauP : list R; tauS : list R;
                       freqs : list R; nrel : Z; cfreq : option R }.

(** The averaged vectors. *)
Inductive key := InvX | InvY | InvZ | MuXY | MuXZ | MuYZ | TauXY | TauXZ | TauYZ.

(** A parameter object: parameters, derived vectors, the four dirty flags, the averaging matrices. *)
Record model := mkM { par : params; pMod : list R; sMod : list R; invRho : list fpv;
                      dP : bool; dS : bool; dI : bool; dA : bool;
                      mats : avgkind -> matrix; avs : key -> list R }.
Definition purged : avgkind -> matrix := fun _ => mkMat 0 [].
(** A freshly constructed object: all flags true (Modelparameter.hpp 284, 312-314), no matrices, no relaxation mechanisms. *)
Definition fresh (p : params) : model := mkM p [] [] [] true true true true purged (fun _ => []).
Definition noParams : params := mkP [] [] [] [] [] [] 0 None.

(** Element-wise operation; LAMA throws when the sizes differ. *)
Fixpoint zipR {A B C} (f : A -> B -> C) (a : list A) (b : list B) : res (list C) :=
  match a, b with
  | [], [] => Ok []
  | x :: a, y :: b => r <- zipR f a b ;; Ok (f x y :: r)
  | _, _ => Throw
  end.

(** Floating-point division and square root of numbers. *)
Definition fdiv (a b : R) : fpv :=
  if Req_EM_T b 0 then (if Req_EM_T a 0 then NaN else if Rlt_dec 0 a then PInf else MInf) else Num (a / b).
Definition fsqrt (a : fpv) : fpv :=
  match a with Num x => if Rlt_dec x 0 then NaN else Num (sqrt x) | PInf => PInf | _ => NaN end.
(** The numbers of a vector without invalid entries. *)
Definition nums (v : list fpv) : list R := map (fun x => match x with Num r => r | _ => 0%R end) v.

(** calcModulusFromVelocity, ModelparameterSeismic.cpp 131-136. *)
Definition calcModulusFromVelocity (v dens : list R) : res (list R) := zipR (fun r c => r * c * c)%R dens v.
(** calcVelocityFromModulus, 147-157. *)
Definition calcVelocityFromModulus (m dens : list R) : res (list R) :=
  q <- zipR fdiv m dens ;; Ok (nums (replaceInvalid (map fsqrt q) (Num 0))).

(** The sum over the relaxation mechanisms, Viscoelastic.cpp 658-665, 699-706, ViscoSH.cpp 562-569.  relaxationFrequency[l] is
    not checked.  The centre frequency is read although it may have no value; the model lets that matter only in the loop. *)
Fixpoint relaxLoop (ls : list Z) (p : params) (sum : R) : res R :=
  match ls with
  | [] => Ok sum
  | l :: ls =>
      f <- vget (freqs p) l ;;
      w <- match cfreq p with Some c => Ok (2 * PI * c)%R | None => UB end ;;
      let ts := (1 / (2 * PI * f))%R in
      relaxLoop ls p (sum + w * w * ts * ts / (1 + w * w * ts * ts))%R
  end.
Definition relaxSum (p : params) : res R := relaxLoop (zseq 0 (Z.to_nat (nrel p))) p 0.
(** The modulus divided by 1 + sum * tau (668-669, 708-709); not protected against 1 + sum * tau = 0. *)
Definition scaled (p : params) (tau m : list R) : res (list R) :=
  s <- relaxSum p ;; zipR (fun x t => x / (1 + s * t))%R m tau.

(** getPWaveModulus, ModelparameterSeismic.cpp 208-219, Viscoelastic.cpp 650-674; throws in SH.cpp 486, ViscoSH.cpp 533. *)
Definition computeP (k : kind) (p : params) : res (list R) :=
  m <- calcModulusFromVelocity (vP p) (rho p) ;; if visco k then scaled p (tauP p) m else Ok m.
Definition getPWaveModulus (k : kind) (m : model) : res (model * list R) :=
  if negb (hasP k) then Throw else
  if dP m then
    v <- computeP k (par m) ;;
    Ok (mkM (par m) v (sMod m) (invRho m) false (dS m) (dI m) (dA m) (mats m) (avs m), v)
  else Ok (m, pMod m).
(** getSWaveModulus, ModelparameterSeismic.cpp 234-246, Viscoelastic.cpp 691-714, ViscoSH.cpp 554-577; throws in Acoustic.cpp 443. *)
Definition computeS (k : kind) (p : params) : res (list R) :=
  m <- calcModulusFromVelocity (vS p) (rho p) ;; if visco k then scaled p (tauS p) m else Ok m.
Definition getSWaveModulus (k : kind) (m : model) : res (model * list R) :=
  if negb (hasS k) then Throw else
  if dS m then
    v <- computeS k (par m) ;;
    Ok (mkM (par m) (pMod m) v (invRho m) (dP m) false (dI m) (dA m) (mats m) (avs m), v)
  else Ok (m, sMod m).
(** getInverseDensity, ModelparameterSeismic.cpp 164-172; throws in Acoustic.cpp 433, Elastic.cpp 631, Viscoelastic.cpp 639. *)
Definition getInverseDensity (k : kind) (m : model) : res (model * list fpv) :=
  if hasP k then Throw else
  if dI m then
    let v := map (fdiv 1) (rho (par m)) in
    Ok (mkM (par m) (pMod m) (sMod m) v (dP m) (dS m) false (dA m) (mats m) (avs m), v)
  else Ok (m, invRho m).

(** calcInverseAveragedParameter, Modelparameter.cpp 633-639. *)
Definition calcInverseAveragedParameter (v : list R) (a : matrix) : res (list R) :=
  w <- matvec a v ;; Ok (nums (replaceInvalid (map (fdiv 1) w) (Num 0))).
(** calcAveragedParameter, Modelparameter.cpp 648-651. *)
Definition calcAveragedParameter (v : list R) (a : matrix) : res (list R) := matvec a v.
(** calcAveragedSWaveModulus, ModelparameterSeismic.cpp 421-432: the first argument is changed.  The reciprocals are those of
    numbers >= 1 and of weighted means of such numbers. *)
Definition calcAveragedSWaveModulus (mu : list R) (a : matrix) : res (list R * list R) :=
  mu' <- searchAndReplace mu 1 1 1 ;;
  t <- matvec a (map Rinv mu') ;;
  av <- searchAndReplace (map Rinv t) 4 0 1 ;;
  Ok (mu', av).

Definition key_eqb (a b : key) : bool :=
  match a, b with
  | InvX, InvX | InvY, InvY | InvZ, InvZ | MuXY, MuXY | MuXZ, MuXZ | MuYZ, MuYZ | TauXY, TauXY | TauXZ, TauXZ | TauYZ, TauYZ => true
  | _, _ => false
  end.
Definition kput (f : key -> list R) (x : key) (v : list R) : key -> list R := fun y => if key_eqb x y then v else f y.

(** The averages of each class in the order of calculateAveraging, with the matrix used: Acoustic.cpp 381-390, SH.cpp 424-433,
    Elastic.cpp 576-588, ViscoSH.cpp 450-461, Viscoelastic.cpp 562-577. *)
Definition plan (k : kind) : list (key * avgkind) :=
  match k with
  | Acoustic => [(InvX, AX); (InvY, AY); (InvZ, AZ)]
  | SH => [(MuXZ, AX); (MuYZ, AY)]
  | Elastic => [(InvX, AX); (InvY, AY); (InvZ, AZ); (MuXY, AXY); (MuXZ, AXZ); (MuYZ, AYZ)]
  | ViscoSH => [(MuXZ, AX); (MuYZ, AY); (TauXZ, AX); (TauYZ, AY)]
  | Viscoelastic => [(InvX, AX); (InvY, AY); (InvZ, AZ); (MuXY, AXY); (MuXZ, AXZ); (MuYZ, AYZ); (TauXY, AXY); (TauXZ, AXZ); (TauYZ, AYZ)]
  end.
Definition averageOne (m : model) (e : key * avgkind) : res model :=
  let '(x, a) := e in
  match x with
  | InvX | InvY | InvZ =>
      v <- calcInverseAveragedParameter (rho (par m)) (mats m a) ;;
      Ok (mkM (par m) (pMod m) (sMod m) (invRho m) (dP m) (dS m) (dI m) (dA m) (mats m) (kput (avs m) x v))
  | MuXY | MuXZ | MuYZ =>
      '(mu, v) <- calcAveragedSWaveModulus (sMod m) (mats m a) ;;
      Ok (mkM (par m) (pMod m) mu (invRho m) (dP m) (dS m) (dI m) (dA m) (mats m) (kput (avs m) x v))
  | TauXY | TauXZ | TauYZ =>
      v <- calcAveragedParameter (tauS (par m)) (mats m a) ;;
      Ok (mkM (par m) (pMod m) (sMod m) (invRho m) (dP m) (dS m) (dI m) (dA m) (mats m) (kput (avs m) x v))
  end.
Fixpoint averageAll (m : model) (l : list (key * avgkind)) : res model :=
  match l with [] => Ok m | e :: l => m <- averageOne m e ;; averageAll m l end.
Definition calculateAveraging (k : kind) (m : model) : res model :=
  if dA m then
    m <- averageAll m (plan k) ;;
    Ok (mkM (par m) (pMod m) (sMod m) (invRho m) (dP m) (dS m) (dI m) false (mats m) (avs m))
  else Ok m.

(** initializeMatrices: Acoustic.cpp 352-366, SH.cpp 398-411, Elastic.cpp 538-559, ViscoSH.cpp 424-437, Viscoelastic.cpp 524-545. *)
Definition kinds (k : kind) : list avgkind :=
  match k with Elastic | Viscoelastic => [AX; AY; AZ; AXY; AXZ; AYZ] | Acoustic => [AX; AY; AZ] | SH | ViscoSH => [AX; AY] end.
Definition avg_eqb (a b : avgkind) : bool :=
  match a, b with AX, AX | AY, AY | AZ, AZ | AXY, AXY | AXZ, AXZ | AYZ, AYZ => true | _, _ => false end.
Fixpoint buildMatrices (g : grid) (l : list avgkind) (f : avgkind -> matrix) : res (avgkind -> matrix) :=
  match l with
  | [] => Ok f
  | a :: l => x <- averageMatrix a g ;; buildMatrices g l (fun b => if avg_eqb a b then x else f b)
  end.
Definition initializeMatrices (k : kind) (g : grid) (m : model) : res model :=
  if dA m then
    f <- buildMatrices g (kinds k) (mats m) ;;
    Ok (mkM (par m) (pMod m) (sMod m) (invRho m) (dP m) (dS m) (dI m) (dA m) f (avs m))
  else Ok m.
(** purgeMatrices (e.g. Elastic.cpp 562-570): the matrices a class does not purge were never built. *)
Definition purgeMatrices (m : model) : model :=
  mkM (par m) (pMod m) (sMod m) (invRho m) (dP m) (dS m) (dI m) (dA m) purged (avs m).

(** prepareForModelling: Acoustic.cpp 29-45, SH.cpp 28-46, Elastic.cpp 28-45, ViscoSH.cpp 28-46, Viscoelastic.cpp 27-45; the
    petrophysical quantities of an inversion are left out. *)
Definition prepareForModelling (k : kind) (g : grid) (m : model) : res model :=
  m <- (if hasP k then '(m, _) <- getPWaveModulus k m ;; Ok m else Ok m) ;;
  m <- (if hasS k then '(m, _) <- getSWaveModulus k m ;; Ok m else Ok m) ;;
  m <- (if hasP k then Ok m else '(m, _) <- getInverseDensity k m ;; Ok m) ;;
  m <- initializeMatrices k g m ;;
  m <- calculateAveraging k m ;;
  Ok (purgeMatrices m).

(** The getters a class overrides with an exception: Acoustic.hpp 72-83, SH.hpp 73-78, Elastic.hpp 69-74, ViscoSH.hpp 73-74. *)
Definition barred (k : kind) (x : key) : bool :=
  match k, x with
  | Acoustic, (MuXY | MuXZ | MuYZ | TauXY | TauXZ | TauYZ) => true
  | (SH | Elastic), (TauXY | TauXZ | TauYZ) => true
  | ViscoSH, TauXY => true
  | _, _ => false
  end.
(** getInverseDensityAverageX etc., ModelparameterSeismic.cpp 437-540. *)
Definition getAverage (k : kind) (m : model) (x : key) : res (model * list R) :=
  if barred k x then Throw else
  m <- calculateAveraging k m ;; Ok (m, avs m x).
(** The const getters, 176-180, 223-227, 250-254, 546-end; Acoustic::getSWaveModulus, SH::getPWaveModulus throw. *)
Definition constP (k : kind) (m : model) : res (list R) := if negb (hasP k) then Throw else if dP m then Throw else Ok (pMod m).
Definition constS (k : kind) (m : model) : res (list R) := if negb (hasS k) then Throw else if dS m then Throw else Ok (sMod m).
Definition constI (m : model) : res (list fpv) := if dI m then Throw else Ok (invRho m).
Definition constA (k : kind) (m : model) (x : key) : res (list R) := if barred k x then Throw else if dA m then Throw else Ok (avs m x).

(** Setters: setDensity 194-201, setVelocityP 269-273, setVelocityS 286-291, setTauP 353-357, setTauS 370-375,
    setRelaxationFrequency 24-30, setNumRelaxationMechanisms 35-41. *)
Definition flag (m : model) (p : params) (fP fS fI fA : bool) : model :=
  mkM p (pMod m) (sMod m) (invRho m) (fP || dP m) (fS || dS m) (fI || dI m) (fA || dA m) (mats m) (avs m).
Definition setDensity (m : model) (v : list R) : model :=
  let p := par m in flag m (mkP (vP p) (vS p) v (tauP p) (tauS p) (freqs p) (nrel p) (cfreq p)) true true true true.
Definition setVelocityP (m : model) (v : list R) : model :=
  let p := par m in flag m (mkP v (vS p) (rho p) (tauP p) (tauS p) (freqs p) (nrel p) (cfreq p)) true false false false.
Definition setVelocityS (m : model) (v : list R) : model :=
  let p := par m in flag m (mkP (vP p) v (rho p) (tauP p) (tauS p) (freqs p) (nrel p) (cfreq p)) false true false true.
Definition setTauP (m : model) (v : list R) : model :=
  let p := par m in flag m (mkP (vP p) (vS p) (rho p) v (tauS p) (freqs p) (nrel p) (cfreq p)) true false false false.
Definition setTauS (m : model) (v : list R) : model :=
  let p := par m in flag m (mkP (vP p) (vS p) (rho p) (tauP p) v (freqs p) (nrel p) (cfreq p)) false true false true.
Definition setRelaxationFrequency (m : model) (v : list R) : model :=
  let p := par m in flag m (mkP (vP p) (vS p) (rho p) (tauP p) (tauS p) v (nrel p) (cfreq p)) true true false true.
Definition setNumRelaxationMechanisms (m : model) (n : Z) : model :=
  let p := par m in flag m (mkP (vP p) (vS p) (rho p) (tauP p) (tauS p) (freqs p) n (cfreq p)) true true false true.

(** The flags set by the operators and by applyThresholds: those of the vectors the class has. *)
Definition flagAll (k : kind) (m : model) (p : params) : model := flag m p (hasP k) (hasS k) true true.
(** Operators *=, +=, -= with a scalar or another model of the class: Acoustic.cpp 639-715, SH.cpp 628-704, Elastic.cpp 754-836,
    ViscoSH.cpp 655-734, Viscoelastic.cpp 754-843; Viscoelastic scales tauP and tauS, ViscoSH tauS.  porosity, saturation and
    reflectivity are not modelled. *)
Definition scaleParams (k : kind) (p : params) (c : R) : params :=
  let s := map (fun x => x * c)%R in
  mkP (if hasP k then s (vP p) else vP p) (if hasS k then s (vS p) else vS p) (s (rho p))
      (match k with Viscoelastic => s (tauP p) | _ => tauP p end) (if visco k then s (tauS p) else tauS p) (freqs p) (nrel p) (cfreq p).
Definition combineParams (f : R -> R -> R) (k : kind) (p q : params) : res params :=
  a <- (if hasP k then zipR f (vP p) (vP q) else Ok (vP p)) ;;
  b <- (if hasS k then zipR f (vS p) (vS q) else Ok (vS p)) ;;
  c <- zipR f (rho p) (rho q) ;;
  d <- (match k with Viscoelastic => zipR f (tauP p) (tauP q) | _ => Ok (tauP p) end) ;;
  e <- (if visco k then zipR f (tauS p) (tauS q) else Ok (tauS p)) ;;
  Ok (mkP a b c d e (freqs p) (nrel p) (cfreq p)).
(** Assignment: Acoustic.cpp 720-750, SH.cpp 709-745, Elastic.cpp 841-885, ViscoSH.cpp 739-787, Viscoelastic.cpp 848-905. *)
Definition assignParams (k : kind) (p q : params) : params :=
  mkP (if hasP k then vP q else vP p) (if hasS k then vS q else vS p) (rho q)
      (match k with Viscoelastic => tauP q | _ => tauP p end) (if visco k then tauS q else tauS p)
      (if visco k then freqs q else freqs p) (if visco k then nrel q else nrel p) (if visco k then cfreq q else cfreq p).

(** Thresholds read from the configuration. *)
Record thresholds := mkT { lowVP : R; upVP : R; lowVS : R; upVS : R; lowRho : R; upRho : R; lowRatio : R; upRatio : R }.
(** applyThresholds: Acoustic.cpp 50-82, SH.cpp 50-81, Elastic.cpp 50-93, ViscoSH.cpp 50-81, Viscoelastic.cpp 50-94. *)
Definition clip (v : list R) (lo up : R) : res (list R) := a <- searchAndReplace v lo lo 1 ;; searchAndReplace a up up 2.
Definition mask (v : list R) : list R := map (fun x => if Req_EM_T x 0 then 0 else 1)%R v.
Definition thresholdParams (k : kind) (t : thresholds) (p : params) : res params :=
  let maskP := mask (vP p) in let maskS := mask (vS p) in
  let both := match k with Elastic | Viscoelastic => true | _ => false end in
  a <- (if both then replaceVpwithVs (vP p) (vS p) (lowRatio t) 1 else Ok (vP p)) ;;
  a <- (if both then replaceVpwithVs a (vS p) (upRatio t) 2 else Ok a) ;;
  a <- (if hasP k then clip a (lowVP t) (upVP t) else Ok a) ;;
  c <- clip (rho p) (lowRho t) (upRho t) ;;
  b <- (if hasS k then clip (vS p) (lowVS t) (upVS t) else Ok (vS p)) ;;
  a <- (if hasP k then zipR Rmult a maskP else Ok a) ;;
  c <- zipR Rmult c (if hasP k then maskP else maskS) ;;
  b <- (if hasS k then zipR Rmult b maskS else Ok b) ;;
  Ok (mkP a b c (tauP p) (tauS p) (freqs p) (nrel p) (cfreq p)).

(** Copy constructor: Acoustic.cpp 279-293, SH.cpp 238-252, Elastic.cpp 305-321, ViscoSH.cpp 257-276, Viscoelastic.cpp 294-315.
    The averages and matrices are not copied; the flags of vectors the class does not have keep their initial value. *)
Definition copy (k : kind) (m : model) : model :=
  let p := par m in
  let q := mkP (if hasP k then vP p else []) (if hasS k then vS p else []) (rho p)
               (match k with Viscoelastic => tauP p | _ => [] end) (if visco k then tauS p else [])
               (if visco k then freqs p else []) (if visco k then nrel p else 0) (if visco k then cfreq p else None) in
  mkM q (if hasP k then pMod m else []) (if hasS k then sMod m else []) (invRho m)
      (if hasP k then dP m else true) (if hasS k then dS m else true) (dI m) true purged (fun _ => []).

(** init with homogeneous values (Acoustic.cpp 225-233, SH.cpp 185-192, Elastic.cpp 249-258, ViscoSH.cpp 201-211, Viscoelastic.cpp
    232-243): the vectors are overwritten; no flag is set.  [n] is the size of the distribution. *)
Definition initHomogeneous (k : kind) (n : nat) (p : params) (c_vp c_vs c_rho c_tp c_ts : R) (fs : list R) (nr : Z) (fc : R) : params :=
  mkP (if hasP k then repeat c_vp n else vP p) (if hasS k then repeat c_vs n else vS p) (repeat c_rho n)
      (match k with Viscoelastic => repeat c_tp n | _ => tauP p end) (if visco k then repeat c_ts n else tauS p)
      (if visco k then fs else freqs p) (if visco k then nr else nrel p) (if visco k then Some fc else cfreq p).
Definition init (k : kind) (n : nat) (m : model) (c_vp c_vs c_rho c_tp c_ts : R) (fs : list R) (nr : Z) (fc : R) : model :=
  flag m (initHomogeneous k n (par m) c_vp c_vs c_rho c_tp c_ts fs nr fc) false false false false.

(** getModelPerShot: Acoustic.cpp 91-120, SH.cpp 91-121, Elastic.cpp 104-140, ViscoSH.cpp 91-124, Viscoelastic.cpp 103-145; the
    relaxation mechanisms are not handed over. *)
Definition getModelPerShot (k : kind) (w : matrix) (p : params) (m : model) : res model :=
  m <- (if hasP k then v <- matvec w (vP p) ;; Ok (setVelocityP m v) else Ok m) ;;
  m <- (if hasS k then v <- matvec w (vS p) ;; Ok (setVelocityS m v) else Ok m) ;;
  v <- matvec w (rho p) ;;
  let m := setDensity m v in
  m <- (match k with Viscoelastic => v <- matvec w (tauP p) ;; Ok (setTauP m v) | _ => Ok m end) ;;
  (if visco k then v <- matvec w (tauS p) ;; Ok (setTauS m v) else Ok m).

(** Operations on one object and what they return; an exception ends the run. *)
Inductive op :=
  | SetRho (v : list R) | SetVP (v : list R) | SetVS (v : list R) | SetTauP (v : list R) | SetTauS (v : list R)
  | SetFreq (v : list R) | SetNum (n : Z) | Scale (c : R) | Plus (q : params) | Minus (q : params) | Assign (q : params)
  | Threshold (t : thresholds) | Copy | Prepare
  | GetP | GetS | GetI | GetA (x : key) | ConstP | ConstS | ConstI | ConstA (x : key).
Inductive out := Nothing | Values (v : list R) | FValues (v : list fpv).

Definition step (k : kind) (g : grid) (m : model) (o : op) : res (model * out) :=
  let quiet m := Ok (m, Nothing) in
  match o with
  | SetRho v => quiet (setDensity m v) | SetVP v => quiet (setVelocityP m v) | SetVS v => quiet (setVelocityS m v)
  | SetTauP v => quiet (setTauP m v) | SetTauS v => quiet (setTauS m v)
  | SetFreq v => quiet (setRelaxationFrequency m v) | SetNum n => quiet (setNumRelaxationMechanisms m n)
  | Scale c => quiet (flagAll k m (scaleParams k (par m) c))
  | Plus q => p <- combineParams Rplus k (par m) q ;; quiet (flagAll k m p)
  | Minus q => p <- combineParams Rminus k (par m) q ;; quiet (flagAll k m p)
  | Assign q => quiet (flagAll k m (assignParams k (par m) q))
  | Threshold t => p <- thresholdParams k t (par m) ;; quiet (flagAll k m p)
  | Copy => quiet (copy k m)
  | Prepare => m <- prepareForModelling k g m ;; quiet m
  | GetP => '(m, v) <- getPWaveModulus k m ;; Ok (m, Values v)
  | GetS => '(m, v) <- getSWaveModulus k m ;; Ok (m, Values v)
  | GetI => '(m, v) <- getInverseDensity k m ;; Ok (m, FValues v)
  | GetA x => '(m, v) <- getAverage k m x ;; Ok (m, Values v)
  | ConstP => v <- constP k m ;; Ok (m, Values v)
  | ConstS => v <- constS k m ;; Ok (m, Values v)
  | ConstI => v <- constI m ;; Ok (m, FValues v)
  | ConstA x => v <- constA k m x ;; Ok (m, Values v)
  end.
Fixpoint run (k : kind) (g : grid) (m : model) (os : list op) : res (model * list out) :=
  match os with
  | [] => Ok (m, [])
  | o :: os => '(m, r) <- step k g m o ;; '(m, rs) <- run k g m os ;; Ok (m, r :: rs)
  end.
