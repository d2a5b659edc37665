(** Model of the electromagnetic parameter classes: src/ModelparameterEM/ModelparameterEM.cpp, EMEM.cpp, TMEM.cpp, ViscoEMEM.cpp,
    ViscoTMEM.cpp, and of getVmin of src/Modelparameter/Modelparameter.cpp.
    Vectors are lists of floating-point values [fpv] (number, infinities, not-a-number); numbers are reals, zero has no sign.
    Vectors of different length in one operation make LAMA throw. *)
From Coq Require Import Reals.
From Verif Require Import Base M_Grid M_Average M_Common M_Model.
Open Scope Z_scope.

(** ** Arithmetic with infinities and not-a-number *)
Definition fneg (a : fpv) : fpv := match a with Num x => Num (- x) | PInf => MInf | MInf => PInf | NaN => NaN end.
Definition fadd (a b : fpv) : fpv :=
  match a, b with
  | Num x, Num y => Num (x + y)
  | NaN, _ | _, NaN | PInf, MInf | MInf, PInf => NaN
  | PInf, _ | _, PInf => PInf
  | MInf, _ | _, MInf => MInf
  end.
Definition fsub (a b : fpv) : fpv := fadd a (fneg b).
(** An infinity times a number. *)
Definition fscale (a : fpv) (x : R) : fpv := if Req_EM_T x 0 then NaN else if Rlt_dec 0 x then a else fneg a.
Definition fmul (a b : fpv) : fpv :=
  match a, b with
  | Num x, Num y => Num (x * y)
  | NaN, _ | _, NaN => NaN
  | Num x, i => fscale i x
  | i, Num x => fscale i x
  | PInf, PInf | MInf, MInf => PInf
  | _, _ => MInf
  end.
Definition fquot (a b : fpv) : fpv :=
  match a, b with
  | Num x, Num y => fdiv x y
  | NaN, _ | _, NaN => NaN
  | Num _, _ => Num 0
  | i, Num y => if Rlt_dec y 0 then fneg i else i
  | _, _ => NaN
  end.
Definition flt (a b : fpv) : bool :=
  match a, b with
  | Num x, Num y => if Rlt_dec x y then true else false
  | NaN, _ | _, NaN => false
  | MInf, MInf | PInf, PInf => false
  | MInf, _ | _, PInf => true
  | _, _ => false
  end.
Definition isInt (y : R) : bool := if Req_EM_T (IZR (Int_part y)) y then true else false.
(** std::pow. *)
Definition fpow (a : fpv) (y : R) : fpv :=
  if Req_EM_T y 0 then Num 1 else
  match a with
  | Num x => if Rlt_dec 0 x then Num (Rpower x y)
             else if Req_EM_T x 0 then (if Rlt_dec 0 y then Num 0 else PInf)
             else if isInt y then Num (powerRZ x (Int_part y)) else NaN
  | PInf => if Rlt_dec 0 y then PInf else Num 0
  | MInf => if Rlt_dec y 0 then Num 0 else if isInt y && Z.odd (Int_part y) then MInf else PInf
  | NaN => NaN
  end.

Notation vec := (list fpv).
(** searchAndReplace of Common.hpp 67-120 on such vectors, with replaceValue = threshold (types 1 and 2 are used). *)
Definition raise (lo : R) (v : vec) : vec := map (fun x => if flt x (Num lo) then Num lo else x) v.
Definition lower (up : R) (v : vec) : vec := map (fun x => if flt (Num up) x then Num up else x) v.
Definition limit (lo up : R) (v : vec) : vec := lower up (raise lo v).
(** Matrix times vector. *)
Definition frowdot (r : row) (v : vec) : fpv := fold_right (fun e s => fadd (fmul (Num (snd e)) (nth (Z.to_nat (fst e)) v (Num 0))) s) (Num 0) r.
Definition fmatvec (m : matrix) (v : vec) : res vec :=
  if mcols m =? Z.of_nat (length v) then Ok (map (fun r => frowdot r v) (mrows m)) else Throw.

(** ** Objects *)
Inductive emkind := EMEM | TMEM | ViscoEMEM | ViscoTMEM.
Definition evisco (k : emkind) : bool := match k with ViscoEMEM | ViscoTMEM => true | _ => false end.
Definition is3D (k : emkind) : bool := match k with EMEM | ViscoEMEM => true | _ => false end.

(** Constants, Modelparameter.hpp 359-364. *)
Definition mu0 : R := (12566370614 / 10 ^ 16)%R.
Definition eps0 : R := (88541878176 / 10 ^ 22)%R.
Definition epsWater : R := 81%R.
Definition epsVacuum : R := 1%R.

(** The parameters: permeability, conductivity, permittivity, relaxation strengths, porosity, saturation, reflectivity, rock
    matrix parameters (electricConductivityWater, relativeDieletricPeimittivityRockMatrix), relaxation mechanisms, centre
    frequency (no initial value, Modelparameter.hpp 300). *)
Record eparams := mkE { mu : vec; sigma : vec; eps : vec; tauSig : vec; tauEps : vec; por : vec; sat : vec; refl : vec;
                        sigW : vec; epsRM : vec; efreqs : list R; enrel : Z; ecf : option R }.

Inductive quantity := QInvMu | QSigma | QTauSigma | QEps | QTauEps.
(** A parameter object; an averaged vector is named by quantity and direction or plane.  [exch], [count] are exchangeStrategy and
    exchangeStrategyCount (ModelparameterEM.hpp). *)
Record emodel := mkEM { epar : eparams; vel : vec; dV : bool; dAv : bool; emats : avgkind -> matrix;
                        eavs : quantity -> avgkind -> vec; exch : Z; count : Z }.
Definition efresh (p : eparams) : emodel := mkEM p [] true true purged (fun _ _ => []) 0 0.
Definition noE : eparams := mkE [] [] [] [] [] [] [] [] [] [] [] 0 None.

(** ** Relaxation *)
(** The sums over the mechanisms, ModelparameterEM.cpp 417-422, 446-451, 515-522, in the order of the operations;
    relaxationFrequency[l] is not checked.  The centre frequency is read although it may have no value; the model lets that matter
    only in the loop. *)
Fixpoint relaxSums (ls : list Z) (p : eparams) (a b : fpv) : res (fpv * fpv) :=
  match ls with
  | [] => Ok (a, b)
  | l :: ls =>
      f <- vget (efreqs p) l ;;
      w <- match ecf p with Some c => Ok (Num (2 * PI * c)) | None => UB end ;;
      let t := fquot (Num 1) (Num (2 * PI * f)) in
      let wt := fmul (fmul w w) t in
      let wtt := fmul wt t in
      relaxSums ls p (fadd a (fquot wtt (fadd (Num 1) wtt))) (fadd b (fquot wt (fadd (Num 1) wtt)))
  end.
(** Divided by the number of mechanisms (423, 452, 523-524). *)
Definition relaxMeans (p : eparams) : res (fpv * fpv) :=
  '(a, b) <- relaxSums (zseq 0 (Z.to_nat (enrel p))) p (Num 0) (Num 0) ;;
  Ok (fquot a (Num (IZR (enrel p))), fquot b (Num (IZR (enrel p)))).

(** getElectricConductivityRealEffective, ModelparameterEM.cpp 413-437.  The guard min() < 0 before searchAndReplace only avoids
    needless work, unless the vector holds not-a-number (then min() is unspecified; the model replaces). *)
Definition sigmaRE (p : eparams) : res vec :=
  '(_, b) <- relaxMeans p ;;
  s <- zipR fmul (eps p) (map (fmul b) (tauEps p)) ;;
  s <- zipR fadd s (sigma p) ;;
  Ok (raise 0 s).
(** getDielectricPermittivityRealEffective, 442-468. *)
Definition epsRE (p : eparams) : res vec :=
  '(a, _) <- relaxMeans p ;;
  e <- zipR fmul (eps p) (map (fsub (Num 1)) (map (fmul a) (tauEps p))) ;;
  s <- zipR fmul (sigma p) (tauSig p) ;;
  e <- zipR fadd e s ;;
  Ok (raise eps0 e).
(** getDielectricPermittivityStatic, 510-554; another calculateType leaves an empty vector. *)
Definition epsStatic (p : eparams) (e s : vec) (calculateType : Z) : res vec :=
  '(a, b) <- relaxMeans p ;;
  let at_ := map (fsub (Num 1)) (map (fmul a) (tauEps p)) in
  let bt := map (fmul b) (tauEps p) in
  r <- (if calculateType =? 1 then
          t <- zipR fmul s (tauSig p) ;; t <- zipR fsub e t ;; zipR fquot t at_
        else if calculateType =? 2 then
          bt <- zipR fmul bt (tauSig p) ;; d <- zipR fsub at_ bt ;;
          t <- zipR fmul s (tauSig p) ;; t <- zipR fsub e t ;; zipR fquot t d
        else Ok []) ;;
  Ok (raise eps0 r).
(** getElectricConductivityStatic, 473-505; another calculateType leaves the permittivity empty. *)
Definition sigmaStatic (p : eparams) (e s : vec) (calculateType : Z) : res vec :=
  '(_, b) <- relaxMeans p ;;
  st <- (if calculateType =? 1 then Ok e else if calculateType =? 2 then epsStatic p e s calculateType else Ok []) ;;
  t <- zipR fmul (map (fmul b) (tauEps p)) st ;;
  r <- zipR fsub s t ;;
  Ok (raise 0 r).

(** ** Velocity *)
(** calcVelocityFromModulus, 319-328. *)
Definition velocityFromModulus (e m : vec) : res vec :=
  q <- zipR fmul e m ;; Ok (replaceInvalid (map (fun x => fquot (Num 1) (fsqrt x)) q) (Num 0)).
(** calcModulusFromVelocity, 299-308. *)
Definition modulusFromVelocity (v m : vec) : res vec :=
  q <- zipR fquot (map (fquot (Num 1)) m) v ;; q <- zipR fquot q v ;; Ok (replaceInvalid q (Num 0)).
(** getVelocityEM, ModelparameterEM.cpp 335-344, ViscoEMEM.cpp 469-479, ViscoTMEM.cpp 484-494. *)
Definition computeV (k : emkind) (p : eparams) : res vec :=
  e <- (if evisco k then epsRE p else Ok (eps p)) ;; velocityFromModulus e (mu p).
Definition getVelocityEM (k : emkind) (m : emodel) : res (emodel * vec) :=
  if dV m then
    v <- computeV k (epar m) ;; Ok (mkEM (epar m) v false (dAv m) (emats m) (eavs m) (exch m) (count m), v)
  else Ok (m, vel m).
(** const version, 349-353. *)
Definition constV (m : emodel) : res vec := if dV m then Throw else Ok (vel m).

(** ** Averages *)
(** calcInverseAveragedParameter, calcAveragedParameter, Modelparameter.cpp 633-651. *)
Definition inverseAverage (v : vec) (a : matrix) : res vec :=
  w <- fmatvec a v ;; Ok (replaceInvalid (map (fquot (Num 1)) w) (Num 0)).
Definition source (p : eparams) (q : quantity) : vec :=
  match q with QInvMu => mu p | QSigma => sigma p | QTauSigma => tauSig p | QEps => eps p | QTauEps => tauEps p end.
Definition average (p : eparams) (q : quantity) (a : matrix) : res vec :=
  match q with QInvMu => inverseAverage (source p q) a | _ => fmatvec a (source p q) end.
(** calculateAveraging: EMEM.cpp 378-395, TMEM.cpp 366-374, ViscoEMEM.cpp 408-434, ViscoTMEM.cpp 442-450: quantity, name of the
    vector, matrix used. *)
Definition eplan (k : emkind) : list (quantity * avgkind * avgkind) :=
  let xyz q := [(q, AX, AX); (q, AY, AY); (q, AZ, AZ)] in
  let three := [(QInvMu, AYZ, AYZ); (QInvMu, AXZ, AXZ); (QInvMu, AXY, AXY)] in
  match k with
  | EMEM => three ++ xyz QSigma ++ xyz QEps
  | ViscoEMEM => three ++ xyz QSigma ++ xyz QTauSigma ++ xyz QEps ++ xyz QTauEps
  | TMEM | ViscoTMEM => [(QInvMu, AXZ, AX); (QInvMu, AYZ, AY)]
  end.
Definition q_eqb (a b : quantity) : bool :=
  match a, b with
  | QInvMu, QInvMu | QSigma, QSigma | QTauSigma, QTauSigma | QEps, QEps | QTauEps, QTauEps => true | _, _ => false
  end.
Definition eput (f : quantity -> avgkind -> vec) (q : quantity) (x : avgkind) (v : vec) : quantity -> avgkind -> vec :=
  fun r y => if q_eqb q r && avg_eqb x y then v else f r y.
Fixpoint eaverageAll (p : eparams) (mats : avgkind -> matrix) (l : list (quantity * avgkind * avgkind)) (f : quantity -> avgkind -> vec)
  : res (quantity -> avgkind -> vec) :=
  match l with
  | [] => Ok f
  | (q, x, a) :: l => v <- average p q (mats a) ;; eaverageAll p mats l (eput f q x v)
  end.
(** An exception on the way leaves the object unusable for the caller; the model does not continue. *)
Definition ecalculateAveraging (k : emkind) (m : emodel) : res emodel :=
  if dAv m then
    f <- eaverageAll (epar m) (emats m) (eplan k) (eavs m) ;;
    Ok (mkEM (epar m) (vel m) (dV m) false (emats m) f (exch m) (count m))
  else Ok m.
(** initializeMatrices: EMEM.cpp 340-360, TMEM.cpp 340-353, ViscoEMEM.cpp 371-392, ViscoTMEM.cpp 416-429. *)
Definition ekinds (k : emkind) : list avgkind := if is3D k then [AX; AY; AZ; AXY; AXZ; AYZ] else [AX; AY].
Definition einitializeMatrices (k : emkind) (g : grid) (m : emodel) : res emodel :=
  if dAv m then
    f <- buildMatrices g (ekinds k) (emats m) ;;
    Ok (mkEM (epar m) (vel m) (dV m) (dAv m) f (eavs m) (exch m) (count m))
  else Ok m.
(** prepareForModelling: EMEM.cpp 28-38, TMEM.cpp 28-38, ViscoEMEM.cpp 27-37, ViscoTMEM.cpp 28-38; purgeMatrices. *)
Definition eprepare (k : emkind) (g : grid) (m : emodel) : res emodel :=
  '(m, _) <- getVelocityEM k m ;;
  m <- einitializeMatrices k g m ;;
  m <- ecalculateAveraging k m ;;
  Ok (mkEM (epar m) (vel m) (dV m) (dAv m) purged (eavs m) (exch m) (count m)).
(** The getters of averaged vectors, ModelparameterEM.cpp 650-1440: non-const and const.  No class bars any of them. *)
Definition egetAverage (k : emkind) (m : emodel) (q : quantity) (x : avgkind) : res (emodel * vec) :=
  m <- ecalculateAveraging k m ;; Ok (m, eavs m q x).
Definition constAv (m : emodel) (q : quantity) (x : avgkind) : res vec := if dAv m then Throw else Ok (eavs m q x).

(** ** Modification *)
(** Parameters replaced, both flags set: setMagneticPermeability 366-371, setElectricConductivity 385-390, setDielectricPermittivity
    403-408, setTauElectricConductivity 565-570, setTauDielectricPermittivity 581-586, setRelaxationFrequency 27-32,
    setNumRelaxationMechanisms 37-42. *)
Definition touch (m : emodel) (p : eparams) : emodel := mkEM p (vel m) true true (emats m) (eavs m) (exch m) (count m).
(** Parameters replaced, flags kept: setPorosity, setSaturation, setReflectivity (Modelparameter.cpp 285-320),
    setElectricConductivityWater, setRelativeDieletricPeimittivityRockMatrix (629-648). *)
Definition keep (m : emodel) (p : eparams) : emodel := mkEM p (vel m) (dV m) (dAv m) (emats m) (eavs m) (exch m) (count m).
Inductive field := FMu | FSigma | FEps | FTauSig | FTauEps | FPor | FSat | FRefl | FSigW | FEpsRM.
Definition setField (p : eparams) (f : field) (v : vec) : eparams :=
  let 'mkE a b c d e g h i j l fs n w := p in
  match f with
  | FMu => mkE v b c d e g h i j l fs n w | FSigma => mkE a v c d e g h i j l fs n w | FEps => mkE a b v d e g h i j l fs n w
  | FTauSig => mkE a b c v e g h i j l fs n w | FTauEps => mkE a b c d v g h i j l fs n w
  | FPor => mkE a b c d e v h i j l fs n w | FSat => mkE a b c d e g v i j l fs n w | FRefl => mkE a b c d e g h v j l fs n w
  | FSigW => mkE a b c d e g h i v l fs n w | FEpsRM => mkE a b c d e g h i j v fs n w
  end.
Definition marks (f : field) : bool := match f with FMu | FSigma | FEps | FTauSig | FTauEps => true | _ => false end.
Definition setVec (m : emodel) (f : field) (v : vec) : emodel :=
  if marks f then touch m (setField (epar m) f v) else keep m (setField (epar m) f v).
Definition withRelax (p : eparams) (fs : list R) (n : Z) (c : option R) : eparams :=
  mkE (mu p) (sigma p) (eps p) (tauSig p) (tauEps p) (por p) (sat p) (refl p) (sigW p) (epsRM p) fs n c.

(** Operators *=: EMEM.cpp 469-481, TMEM.cpp 448-460, ViscoEMEM.cpp 518-534, ViscoTMEM.cpp 533-549. *)
Definition escale (k : emkind) (p : eparams) (c : R) : eparams :=
  let s := map (fun x => fmul x (Num c)) in let t v := if evisco k then s v else v in
  mkE (s (mu p)) (s (sigma p)) (s (eps p)) (t (tauSig p)) (t (tauEps p)) (s (por p)) (s (sat p)) (s (refl p)) (sigW p) (epsRM p)
      (efreqs p) (enrel p) (ecf p).
(** +=, -=, plusAssign, minusAssign: EMEM.cpp 500-543, 593-622, TMEM.cpp 479-522, 574-603, ViscoEMEM.cpp 553-604, 668-703, ViscoTMEM.cpp
    568-619, 683-718; [k'] is the class of the right-hand side: the classes without relaxation throw in getTau... *)
Definition ecombine (f : fpv -> fpv -> fpv) (k k' : emkind) (p q : eparams) : res eparams :=
  a <- zipR f (mu p) (mu q) ;; b <- zipR f (sigma p) (sigma q) ;; c <- zipR f (eps p) (eps q) ;;
  x <- zipR f (por p) (por q) ;; y <- zipR f (sat p) (sat q) ;; z <- zipR f (refl p) (refl q) ;;
  if evisco k then
    if evisco k' then
      d <- zipR f (tauSig p) (tauSig q) ;; e <- zipR f (tauEps p) (tauEps q) ;;
      Ok (mkE a b c d e x y z (sigW p) (epsRM p) (efreqs p) (enrel p) (ecf p))
    else Throw
  else Ok (mkE a b c (tauSig p) (tauEps p) x y z (sigW p) (epsRM p) (efreqs p) (enrel p) (ecf p)).
(** operator=, assign: EMEM.cpp 550-586, TMEM.cpp 529-567, ViscoEMEM.cpp 611-661, ViscoTMEM.cpp 626-676. *)
Definition eassign (k k' : emkind) (p q : eparams) : res eparams :=
  if evisco k then
    if evisco k' then Ok q else Throw
  else Ok (mkE (mu q) (sigma q) (eps q) (tauSig p) (tauEps p) (por q) (sat q) (refl q) (sigW q) (epsRM q) (efreqs p) (enrel p) (ecf p)).
(** Copy constructor: EMEM.cpp 292-304, TMEM.cpp 292-304, ViscoEMEM.cpp 310-329, ViscoTMEM.cpp 355-374.  Averages, averaging flag, rock
    matrix parameters and the exchange strategy are not copied. *)
Definition ecopy (k : emkind) (m : emodel) : emodel :=
  let p := epar m in let v x := if evisco k then x else [] in
  mkEM (mkE (mu p) (sigma p) (eps p) (v (tauSig p)) (v (tauEps p)) (por p) (sat p) (refl p) [] []
            (if evisco k then efreqs p else []) (if evisco k then enrel p else 0) (if evisco k then ecf p else None))
       (vel m) (dV m) true purged (fun _ _ => []) 0 0.

(** ** Thresholds *)
(** [thPetro] and [thRefl] are present when the configuration asks for them (EMEM.cpp 61, 68). *)
Record ethresholds := mkET { lowSigma : R; upSigma : R; lowEps : R; upEps : R; lowTS : R; upTS : R; lowTE : R; upTE : R;
                             thPetro : option (R * R * R * R); thRefl : option (R * R) }.
(** mask: sign and absolute value of the relative permittivity minus 1. *)
Definition vacuumMask (v : vec) : vec :=
  map (fun x => match fsub x (Num 1) with Num r => if Req_EM_T r 0 then Num 0 else Num 1 | NaN => NaN | _ => Num 1 end) v.
Definition divBy (c : R) (v : vec) : vec := map (fun x => fquot x (Num c)) v.
Definition timesBy (c : R) (v : vec) : vec := map (fun x => fmul x (Num c)) v.
Definition petroLimits (t : ethresholds) (x y z : vec) : vec * vec * vec :=
  (match thPetro t with Some (l, u, _, _) => limit l u x | None => x end,
   match thPetro t with Some (_, _, l, u) => limit l u y | None => y end,
   match thRefl t with Some (l, u) => limit l u z | None => z end).
(** Restoring vacuum: EMEM.cpp 77-80. *)
Definition restore (v mask : vec) : res vec :=
  r <- zipR fmul (map (fun x => fsub x (Num 1)) v) mask ;; Ok (timesBy eps0 (map (fun x => fadd x (Num 1)) r)).
(** applyThresholds: EMEM.cpp 44-81, TMEM.cpp 44-81. *)
Definition plainThresholds (t : ethresholds) (p : eparams) : res eparams :=
  let er := divBy eps0 (eps p) in
  let mask := vacuumMask er in
  let s := limit (lowSigma t) (upSigma t) (sigma p) in
  let er := limit (lowEps t) (upEps t) er in
  let '(x, y, z) := petroLimits t (por p) (sat p) (refl p) in
  s <- zipR fmul s mask ;; x <- zipR fmul x mask ;; y <- zipR fmul y mask ;; z <- zipR fmul z mask ;;
  e <- restore er mask ;;
  Ok (mkE (mu p) s e (tauSig p) (tauEps p) x y z (sigW p) (epsRM p) (efreqs p) (enrel p) (ecf p)).
(** applyThresholds: ViscoEMEM.cpp 43-95, ViscoTMEM.cpp 44-96.  relaxationTime_ref needs the centre frequency. *)
Definition viscoThresholds (t : ethresholds) (p : eparams) : res eparams :=
  e <- epsRE p ;; s <- sigmaRE p ;;
  let er := divBy eps0 e in
  tref <- match ecf p with Some c => Ok (fquot (Num 1) (Num (2 * PI * c))) | None => UB end ;;
  let mask := vacuumMask er in
  let s := limit (lowSigma t) (upSigma t) s in
  let er := limit (lowEps t) (upEps t) er in
  let ts := limit (lowTS t) (upTS t) (map (fun x => fquot x tref) (tauSig p)) in
  let te := limit (lowTE t) (upTE t) (tauEps p) in
  let '(x, y, z) := petroLimits t (por p) (sat p) (refl p) in
  s <- zipR fmul s mask ;; ts <- zipR fmul ts mask ;; te <- zipR fmul te mask ;;
  x <- zipR fmul x mask ;; y <- zipR fmul y mask ;; z <- zipR fmul z mask ;;
  let ts := map (fun x => fmul x tref) ts in
  e <- restore er mask ;;
  let p1 := mkE (mu p) (sigma p) (eps p) ts te x y z (sigW p) (epsRM p) (efreqs p) (enrel p) (ecf p) in
  e1 <- epsStatic p1 e s 2 ;;
  s1 <- sigmaStatic (setField p1 FEps e1) e s 2 ;;
  Ok (setField (setField p1 FEps e1) FSigma s1).
Definition ethreshold (k : emkind) (t : ethresholds) (p : eparams) : res eparams :=
  if evisco k then viscoThresholds t p else plainThresholds t p.

(** ** Initialisation: no flag is set *)
(** initRelaxationMechanisms, ViscoEMEM.cpp 443-454, ViscoTMEM.cpp 458-469. *)
Definition initRelax (p : eparams) (n : Z) (fs : list R) (c : R) : res eparams :=
  if n <? 1 then Throw else
  f <- vget fs 0 ;; if Rle_dec f 0 then Throw else Ok (withRelax p fs n (Some c)).
(** Homogeneous: EMEM.cpp 230-241, TMEM.cpp 230-241, ViscoEMEM.cpp 230-249, ViscoTMEM.cpp 274-293; [n] points. *)
Definition ehomogeneous (k : emkind) (n : nat) (p : eparams) (mur s er tsr te : R) (nr : Z) (fs : list R) (c : R) : res eparams :=
  let cst x := repeat (Num x) n in
  if evisco k then
    p <- initRelax p nr fs c ;;
    let tref := fquot (Num 1) (Num (2 * PI * c)) in
    Ok (mkE (cst (mur * mu0)%R) (cst s) (cst (er * eps0)%R) (repeat (fmul (Num tsr) tref) n) (cst te) (cst 0%R) (cst 0%R) (cst 0%R)
            (sigW p) (epsRM p) (efreqs p) (enrel p) (ecf p))
  else
    Ok (mkE (cst (mur * mu0)%R) (cst s) (cst (er * eps0)%R) (tauSig p) (tauEps p) (cst 0%R) (cst 0%R) (cst 0%R)
            (sigW p) (epsRM p) (efreqs p) (enrel p) (ecf p)).
(** The model files; porosity, saturation, reflectivity are present when they are read (EMEM.cpp 273-284). *)
Record files := mkF { f_mur : vec; f_sigma : vec; f_epsr : vec; f_tsr : vec; f_te : vec; f_petro : option (vec * vec); f_refl : option vec }.
(** Reading: EMEM.cpp 268-288, TMEM.cpp 268-288, ViscoEMEM.cpp 275-306, ViscoTMEM.cpp 320-351.  IO::readVector replaces the vector by
    the one of the file. *)
Definition efromFiles (k : emkind) (p : eparams) (f : files) : res eparams :=
  let zero := map (fun _ => Num 0) (f_mur f) in
  let '(x, y) := match f_petro f with Some q => q | None => (zero, zero) end in
  let z := match f_refl f with Some r => r | None => zero end in
  let m := timesBy mu0 (f_mur f) in
  if evisco k then
    tref <- match ecf p with Some c => Ok (fquot (Num 1) (Num (2 * PI * c))) | None => UB end ;;
    let e := timesBy eps0 (f_epsr f) in
    let p1 := mkE m (sigma p) (eps p) (map (fun u => fmul u tref) (f_tsr f)) (f_te f) x y z (sigW p) (epsRM p) (efreqs p) (enrel p) (ecf p) in
    e1 <- epsStatic p1 e (f_sigma f) 2 ;;
    s1 <- sigmaStatic (setField p1 FEps e1) e (f_sigma f) 2 ;;
    Ok (setField (setField p1 FEps e1) FSigma s1)
  else Ok (mkE m (f_sigma f) (timesBy eps0 (f_epsr f)) (tauSig p) (tauEps p) x y z (sigW p) (epsRM p) (efreqs p) (enrel p) (ecf p)).
(** write: EMEM.cpp 312-330, TMEM.cpp 312-330, ViscoEMEM.cpp 336-360, ViscoTMEM.cpp 382-406; [petro], [rf]: whether the optional files
    are written (the same conditions as for reading). *)
Definition ewrite (k : emkind) (p : eparams) (petro rf : bool) : res files :=
  let opt := if petro then Some (por p, sat p) else None in
  let optr := if rf then Some (refl p) else None in
  if evisco k then
    e <- epsRE p ;; s <- sigmaRE p ;;
    tref <- match ecf p with Some c => Ok (fquot (Num 1) (Num (2 * PI * c))) | None => UB end ;;
    Ok (mkF (divBy mu0 (mu p)) s (divBy eps0 e) (map (fun u => fquot u tref) (tauSig p)) (tauEps p) opt optr)
  else Ok (mkF (divBy mu0 (mu p)) (sigma p) (divBy eps0 (eps p)) [] [] opt optr).
(** Re-meshing from a regular to a variable grid: EMEM.cpp 181-202, TMEM.cpp 181-202, ViscoTMEM.cpp 217-238 (ViscoEMEM has no variable
    grid): only three vectors are converted. *)
Definition eremesh (k : emkind) (w : matrix) (p : eparams) : res eparams :=
  match k with
  | ViscoEMEM => Throw
  | _ => a <- fmatvec w (mu p) ;; b <- fmatvec w (sigma p) ;; c <- fmatvec w (eps p) ;;
         Ok (setField (setField (setField p FMu a) FSigma b) FEps c)
  end.

(** The objects after initialisation (Modelparameter.cpp 239-262 assigns the vectors). *)
Definition einit (k : emkind) (n : nat) (m : emodel) (mur s er tsr te : R) (nr : Z) (fs : list R) (c : R) : res emodel :=
  p <- ehomogeneous k n (epar m) mur s er tsr te nr fs c ;; Ok (keep m p).
Definition einitFiles (k : emkind) (m : emodel) (f : files) : res emodel := p <- efromFiles k (epar m) f ;; Ok (keep m p).

(** getModelPerShot: EMEM.cpp 90-123, TMEM.cpp 90-123, ViscoEMEM.cpp 104-143, ViscoTMEM.cpp 105-144; [w] is the shrink matrix, [rock] is
    parameterisation 1 or 2.  The relaxation mechanisms are not handed over. *)
Definition egetModelPerShot (k : emkind) (rock : bool) (w : matrix) (p : eparams) (m : emodel) : res emodel :=
  a <- fmatvec w (mu p) ;; let m := setVec m FMu a in
  c <- fmatvec w (eps p) ;; let m := setVec m FEps c in
  b <- fmatvec w (sigma p) ;; let m := setVec m FSigma b in
  m <- (if evisco k then
          e <- fmatvec w (tauEps p) ;; let m := setVec m FTauEps e in
          d <- fmatvec w (tauSig p) ;; Ok (setVec m FTauSig d)
        else Ok m) ;;
  x <- fmatvec w (por p) ;; y <- fmatvec w (sat p) ;; z <- fmatvec w (refl p) ;;
  let m := setVec (setVec (setVec m FPor x) FSat y) FRefl z in
  if rock then
    u <- fmatvec w (epsRM p) ;; v <- fmatvec w (sigW p) ;; Ok (setVec (setVec m FEpsRM u) FSigW v)
  else Ok m.

(** ** Petrophysics *)
(** Archie factors a, m, n. *)
Record archie := mkA { aA : R; mA : R; nA : R }.
(** CRIM part of the pores: (S sqrt(81) + (1 - S) sqrt(1)) porosity, ModelparameterEM.cpp 159-164, 207-212. *)
Definition poreIndex (phi s : vec) : res vec :=
  t <- zipR fadd (timesBy (sqrt epsWater) s) (timesBy (sqrt epsVacuum) (map (fsub (Num 1)) s)) ;; zipR fmul t phi.
(** The permittivity and conductivity seen by the petrophysical relations (138-144, 248-252). *)
Definition seenEps (k : emkind) (p : eparams) : res vec := if evisco k then epsRE p else Ok (eps p).
Definition seenSigma (k : emkind) (p : eparams) : res vec := if evisco k then sigmaRE p else Ok (sigma p).
(** calcRockMatrixParameter, 131-177. *)
Definition rockMatrix (k : emkind) (c : archie) (p : eparams) : res eparams :=
  s <- seenSigma k p ;; e <- seenEps k p ;;
  let e := map fsqrt (divBy eps0 e) in
  s <- zipR fmul (timesBy (aA c) s) (map (fun x => fpow x (- mA c)) (por p)) ;;
  s <- zipR fmul s (map (fun x => fpow x (- nA c)) (sat p)) ;;
  let s := raise 0 (replaceInvalid s (Num 0)) in
  t <- poreIndex (por p) (sat p) ;;
  e <- zipR fsub e t ;;
  e <- zipR fmul e (map (fun x => fquot (Num 1) (fsub (Num 1) x)) (por p)) ;;
  let e := map (fun x => fpow x 2) e in
  let e := limit epsVacuum epsWater (replaceInvalid e (Num epsVacuum)) in
  Ok (setField (setField p FSigW s) FEpsRM e).
(** calcWaveModulusFromPetrophysics, 189-234. *)
Definition fromPetro (k : emkind) (c : archie) (p : eparams) : res eparams :=
  s <- zipR fmul (divBy (aA c) (sigW p)) (map (fun x => fpow x (mA c)) (por p)) ;;
  s <- zipR fmul s (map (fun x => fpow x (nA c)) (sat p)) ;;
  t <- poreIndex (por p) (sat p) ;;
  e <- zipR fmul (map fsqrt (epsRM p)) (map (fsub (Num 1)) (por p)) ;;
  e <- zipR fadd e t ;;
  let s := raise 0 s in
  let e := timesBy eps0 (limit epsVacuum epsWater (map (fun x => fpow x 2) e)) in
  if evisco k then
    e1 <- epsStatic p e s 2 ;; s1 <- sigmaStatic p e s 2 ;; Ok (setField (setField p FSigma s1) FEps e1)
  else Ok (setField (setField p FSigma s) FEps e).
(** calcPetrophysicsFromWaveModulus, 238-288. *)
Definition saturationFrom (k : emkind) (p : eparams) : res vec :=
  e <- seenEps k p ;;
  t2 <- zipR fmul (map fsqrt (epsRM p)) (map (fsub (Num 1)) (por p)) ;;
  t1 <- zipR fsub (map fsqrt (divBy eps0 e)) t2 ;;
  t1 <- zipR fquot t1 (por p) ;;
  Ok (replaceInvalid (divBy (sqrt epsWater - sqrt epsVacuum) (map (fun x => fsub x (Num (sqrt epsVacuum))) t1)) (Num 0)).
Definition porosityFrom (k : emkind) (p : eparams) : res vec :=
  e <- seenEps k p ;;
  t2 <- zipR fadd (timesBy (sqrt epsWater) (sat p)) (timesBy (sqrt epsVacuum) (map (fsub (Num 1)) (sat p))) ;;
  let r := map fsqrt (epsRM p) in
  t2 <- zipR fsub t2 r ;;
  t1 <- zipR fsub (map fsqrt (divBy eps0 e)) r ;;
  t1 <- zipR fquot t1 t2 ;;
  Ok (replaceInvalid t1 (Num 0)).
Definition toPetro (k : emkind) (m : emodel) : res emodel :=
  let p := epar m in
  p <- (if negb (exch m =? 2) || (Z.rem (count m) 2 =? 0) then s <- saturationFrom k p ;; Ok (setField p FSat s)
        else if Z.rem (count m) 2 =? 1 then x <- porosityFrom k p ;; Ok (setField p FPor x) else Ok p) ;;
  Ok (mkEM p (vel m) (dV m) (dAv m) (emats m) (eavs m) (exch m) (count m + 1)).

(** ** Histories *)
Inductive eop :=
  | ESet (f : field) (v : vec) | ESetFreq (fs : list R) | ESetNum (n : Z) | ESetExchange (n : Z)
  | EScale (c : R) | EPlus (k' : emkind) (q : eparams) | EMinus (k' : emkind) (q : eparams) | EAssign (k' : emkind) (q : eparams)
  | EThreshold (t : ethresholds) | ECopy | EPrepare | ERock (c : archie) | EFromPetro (c : archie) | EToPetro
  | EGetV | EGetA (q : quantity) (x : avgkind) | EConstV | EConstA (q : quantity) (x : avgkind).
Inductive eout := ENothing | EValues (v : vec).
Definition estep (k : emkind) (g : grid) (m : emodel) (o : eop) : res (emodel * eout) :=
  let quiet m := Ok (m, ENothing) in let p := epar m in
  match o with
  | ESet f v => quiet (setVec m f v)
  | ESetFreq fs => quiet (touch m (withRelax p fs (enrel p) (ecf p)))
  | ESetNum n => quiet (touch m (withRelax p (efreqs p) n (ecf p)))
  | ESetExchange n => quiet (mkEM p (vel m) (dV m) (dAv m) (emats m) (eavs m) n (count m))
  | EScale c => quiet (touch m (escale k p c))
  | EPlus k' q => r <- ecombine fadd k k' p q ;; quiet (touch m r)
  | EMinus k' q => r <- ecombine fsub k k' p q ;; quiet (touch m r)
  | EAssign k' q => r <- eassign k k' p q ;; quiet (touch m r)
  | EThreshold t => r <- ethreshold k t p ;; quiet (touch m r)
  | ECopy => quiet (ecopy k m)
  | EPrepare => m <- eprepare k g m ;; quiet m
  | ERock c => r <- rockMatrix k c p ;; quiet (keep m r)
  | EFromPetro c => r <- fromPetro k c p ;; quiet (touch m r)
  | EToPetro => m <- toPetro k m ;; quiet m
  | EGetV => '(m, v) <- getVelocityEM k m ;; Ok (m, EValues v)
  | EGetA q x => '(m, v) <- egetAverage k m q x ;; Ok (m, EValues v)
  | EConstV => v <- constV m ;; Ok (m, EValues v)
  | EConstA q x => v <- constAv m q x ;; Ok (m, EValues v)
  end.
Fixpoint erun (k : emkind) (g : grid) (m : emodel) (os : list eop) : res (emodel * list eout) :=
  match os with
  | [] => Ok (m, [])
  | o :: os => '(m, r) <- estep k g m o ;; '(m, rs) <- erun k g m os ;; Ok (m, r :: rs)
  end.

(** ** A velocity helper of the base class *)
(** getVmin, Modelparameter.cpp 104-124, on the vector of velocities; min and max of an empty vector are those of the type. *)
Definition minList (x : R) (l : list R) : R := fold_left Rmin l x.
Definition maxList (x : R) (l : list R) : R := fold_left Rmax l x.
Definition vMin (x : R) (l : list R) : res R :=
  let v := minList x l in
  if Rle_dec v 1 then
    l' <- searchAndReplace (x :: l) 1 (maxList x l) 3 ;;
    match l' with y :: l' => Ok (minList y l') | [] => UB end
  else Ok v.
