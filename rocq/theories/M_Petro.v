(** Model of porosity, saturation, rock matrix and reflectivity of the seismic parameter classes: src/Modelparameter/
    ModelparameterSeismic.cpp, Acoustic.cpp, SH.cpp, Elastic.cpp, ViscoSH.cpp, Viscoelastic.cpp.  The other members are those of
    [M_Model].  Numbers are reals; while a formula is evaluated an element may become infinite or not a number ([fpv]).  Vectors of
    different length in one operation make LAMA throw. *)
From Coq Require Import Reals.
From Verif Require Import Base M_Grid M_Average M_Common M_Model M_ModelEM.
Open Scope Z_scope.

(** Constants, Modelparameter.hpp 335-339; moduli of water and air, ModelparameterSeismic.cpp 393-404. *)
Definition densityWater : R := 1000%R.
Definition densityAir : R := (129 / 100)%R.
Definition criticalPorosity : R := (4 / 10)%R.
Definition bulkModulusWater : R := (densityWater * 1473 * 1473)%R.
Definition bulkModulusAir : R := (densityAir * 340 * 340)%R.

(** porosity, saturation, reflectivity and the rock matrix (densityRockMatrix, shearModulusRockMatrix, bulkModulusRockMatrix). *)
Record petro := mkPet { porosity : list R; saturation : list R; reflectivity : vec; rhoMa : list R; muMa : list R; kMa : list R }.
(** A parameter object with these members; [parameterisation] is the number read from the configuration. *)
Record rock := mkRock { base : model; pet : petro; parameterisation : Z }.
Definition withBase (o : rock) (m : model) : rock := mkRock m (pet o) (parameterisation o).
Definition withPet (o : rock) (p : petro) : rock := mkRock (base o) p (parameterisation o).

Definition fp (v : list R) : vec := map Num v.
(** replaceInvalid(v, 0.0), Common.hpp 127-141: only numbers are left. *)
Definition cleaned (v : vec) : list R := nums (replaceInvalid v (Num 0)).
(** searchAndReplace(v, 0.0, 0.0, 1), Common.hpp 67-120. *)
Definition nonneg (v : list R) : list R := map (fun x => if Rlt_dec x 0 then 0%R else x) v.

(** getBiotCoefficient, ModelparameterSeismic.cpp 46-53. *)
Definition biot (phi : list R) : list R :=
  map (fun x => if Rlt_dec 1 x then 1%R else x) (nonneg (map (fun x => x / criticalPorosity)%R phi)).
(** getBulkModulusKf, 66-80. *)
Definition bulkModulusKf (s : list R) : list R :=
  nonneg (cleaned (map (fun x => fdiv 1 (x / bulkModulusWater + (1 - x) / bulkModulusAir)) s)).
(** getBulkModulusM, 93-113. *)
Definition bulkModulusM (phi s kma : list R) : res (list R) :=
  q <- zipR fdiv phi (bulkModulusKf s) ;;
  d <- zipR Rminus (biot phi) phi ;;
  t <- zipR fdiv d kma ;;
  u <- zipR fadd q t ;;
  Ok (nonneg (cleaned (map (fquot (Num 1)) u))).

(** Mass of the pores: (S rho_water + (1 - S) rho_air) porosity, Elastic.cpp 392-396, 465-469 and the same in the other classes. *)
Definition poreMass (phi s : list R) : res (list R) := zipR Rmult (map (fun x => x * densityWater + (1 - x) * densityAir)%R s) phi.
(** The classes that remove negative values: Elastic.cpp 386, 402-403, 411, 427, 434, 475, 481, 495. *)
Definition guarded (k : kind) (v : list R) : list R := match k with Elastic => nonneg v | _ => v end.

(** Shear and P-wave modulus used by the conversions: the cached vector of getSWaveModulus and getPWaveModulus (Elastic.cpp 383-384,
    517, SH.cpp 299, 377), in the classes with relaxation rho v^2 (Viscoelastic.cpp 380-381, 502, ViscoSH.cpp 325, 403). *)
Definition shearOf (k : kind) (m : model) : res (model * list R) :=
  if visco k then v <- calcModulusFromVelocity (vS (par m)) (rho (par m)) ;; Ok (m, v) else getSWaveModulus k m.
Definition pWaveOf (k : kind) (m : model) : res (model * list R) :=
  if visco k then v <- calcModulusFromVelocity (vP (par m)) (rho (par m)) ;; Ok (m, v) else getPWaveModulus k m.

(** Density of the rock matrix, Elastic.cpp 391-403. *)
Definition matrixDensity (k : kind) (dens phi s : list R) : res (list R) :=
  w <- poreMass phi s ;;
  d <- zipR Rminus dens w ;;
  r <- zipR fmul (fp d) (map (fun x => fdiv 1 (1 - x)) phi) ;;
  Ok (guarded k (cleaned r)).
(** Shear modulus of the rock matrix, Elastic.cpp 405-411. *)
Definition matrixShear (k : kind) (mu beta : list R) : res (list R) :=
  r <- zipR fmul (fp mu) (map (fun b => fdiv 1 (1 - b)) beta) ;; Ok (guarded k (cleaned r)).
(** Bulk modulus of the rock matrix, Elastic.cpp 413-434: the quadratic equation of Gassmann's relation. *)
Definition matrixBulk (k : kind) (ksat beta kf : list R) : res (list R) :=
  let t := map (fun b => 1 - b)%R beta in
  a <- zipR fdiv t kf ;;
  let tempValue := (1 / criticalPorosity - 1)%R in
  let c := fp (map (fun x => - tempValue * x)%R ksat) in
  b <- zipR fadd (fp (map (fun x => x * tempValue)%R t)) (fp (map (fun x => x / criticalPorosity)%R beta)) ;;
  q <- zipR fdiv ksat kf ;;
  b <- zipR fsub b q ;;
  t2 <- zipR fmul (map (fmul (Num 4)) a) c ;;
  d <- zipR fsub (map (fun x => fmul x x) b) t2 ;;
  let d := match k with Elastic => raise 0 d | _ => d end in
  r <- zipR fsub (map fsqrt d) b ;;
  r <- zipR fquot r a ;;
  Ok (guarded k (cleaned (map (fun x => fquot x (Num 2)) r))).
(** Bulk modulus of the saturated rock: pWaveModulus - 4 / 3 * sWaveModulus with the integer quotient 4 / 3 = 1 (Elastic.cpp
    384-386, Viscoelastic.cpp 381-382). *)
Definition fourThirds : Z := Z.quot 4 3.
Definition saturatedBulk (k : kind) (m : model) (mu : list R) : res (model * list R) :=
  '(m, p) <- pWaveOf k m ;;
  r <- zipR Rminus p (map (fun x => IZR fourThirds * x)%R mu) ;; Ok (m, guarded k r).

(** calcRockMatrixParameter: Elastic.cpp 365-440, Viscoelastic.cpp 362-431, SH.cpp 288-326, ViscoSH.cpp 314-352, Acoustic.cpp 324-327
    (empty). *)
Definition calcRockMatrix (k : kind) (o : rock) : res rock :=
  let p := pet o in
  match k with
  | Acoustic => Ok o
  | _ =>
      '(m, mu) <- shearOf k (base o) ;;
      '(m, ks) <- (if hasP k then '(m, x) <- saturatedBulk k m mu ;; Ok (m, Some x) else Ok (m, None)) ;;
      let beta := biot (porosity p) in
      d <- matrixDensity k (rho (par m)) (porosity p) (saturation p) ;;
      u <- matrixShear k mu beta ;;
      b <- match ks with Some ks => matrixBulk k ks beta (bulkModulusKf (saturation p)) | None => Ok (kMa p) end ;;
      Ok (mkRock m (mkPet (porosity p) (saturation p) (reflectivity p) d u b) (parameterisation o))
  end.

(** calcWaveModulusFromPetrophysics: Elastic.cpp 442-505, Viscoelastic.cpp 434-492, SH.cpp 330-367, ViscoSH.cpp 356-393, Acoustic.cpp
    331-334 (empty). *)
Definition velocityOf (m dens : list R) : res (list R) := q <- zipR fdiv m dens ;; Ok (cleaned (map fsqrt q)).
Definition fromPetrophysics (k : kind) (o : rock) : res rock :=
  let p := pet o in
  match k with
  | Acoustic => Ok o
  | _ =>
      let beta := biot (porosity p) in
      w <- poreMass (porosity p) (saturation p) ;;
      g <- zipR Rmult (map (fun x => 1 - x)%R (porosity p)) (rhoMa p) ;;
      d <- zipR Rplus g w ;;
      let d := guarded k d in
      let t := map (fun b => 1 - b)%R beta in
      mu <- zipR Rmult (muMa p) t ;;
      let mu := guarded k mu in
      vs <- velocityOf mu d ;;
      vp <- (if hasP k then
               M <- bulkModulusM (porosity p) (saturation p) (kMa p) ;;
               b2 <- zipR Rmult M (map (fun b => b * b)%R beta) ;;
               ks <- zipR Rmult (kMa p) t ;;
               ks <- zipR Rplus ks b2 ;;
               pm <- zipR Rplus (map (fun x => IZR fourThirds * x)%R mu) (guarded k ks) ;;
               v <- velocityOf pm d ;; Ok (Some v)
             else Ok None) ;;
      let m := setVelocityS (setDensity (base o) d) vs in
      Ok (withBase o (match vp with Some v => setVelocityP m v | None => m end))
  end.

(** calcPetrophysicsFromWaveModulus: Elastic.cpp 508-528, Viscoelastic.cpp 495-513, SH.cpp 371-388, ViscoSH.cpp 397-414, Acoustic.cpp
    338-341 (empty). *)
Definition toPetrophysics (k : kind) (o : rock) : res rock :=
  let p := pet o in
  match k with
  | Acoustic => Ok o
  | _ =>
      '(m, mu) <- shearOf k (base o) ;;
      q <- zipR fdiv mu (muMa p) ;;
      let x := cleaned (map (fun y => fmul (fsub (Num 1) y) (Num criticalPorosity)) q) in
      Ok (mkRock m (mkPet x (saturation p) (reflectivity p) (rhoMa p) (muMa p) (kMa p)) (parameterisation o))
  end.

(** The end of prepareForModelling with a petrophysical parameterisation: Acoustic.cpp 38-42, Elastic.cpp 39-43, Viscoelastic.cpp
    38-42, SH.cpp 40-42, ViscoSH.cpp 40-42.  The getters store their results in members that are read nowhere else in this
    repository; what matters is whether they throw. *)
Definition petrophysical (n : Z) : bool := (n =? 1) || (n =? 2).
Definition prepareRock (k : kind) (g : grid) (o : rock) : res rock :=
  m <- prepareForModelling k g (base o) ;;
  _ <- (if petrophysical (parameterisation o) && hasP k
        then bulkModulusM (porosity (pet o)) (saturation (pet o)) (kMa (pet o)) else Ok []) ;;
  Ok (withBase o m).

(** calcReflectivity: Acoustic.cpp 395-419 (velocityP), SH.cpp 438-462, Elastic.cpp 593-617, ViscoSH.cpp 485-509, Viscoelastic.cpp
    601-625 (velocityS).  [D] is the matrix returned by getDyf, [order] the member spatialFDorder.  DT = 0 is not considered.  The
    element access of the last loop is checked by LAMA. *)
Definition vset {A} (l : list A) (i : Z) (x : A) : res (list A) :=
  if (0 <=? i) && (i <? Z.of_nat (length l)) then Ok (firstn (Z.to_nat i) l ++ x :: skipn (S (Z.to_nat i)) l) else Throw.
Fixpoint silence (ns : list Z) (total : Z) (r : vec) : res vec :=
  match ns with
  | [] => Ok r
  | i :: ns => r <- vset r i (Num 0) ;; r <- vset r (total - i - 1) (Num 0) ;; silence ns total r
  end.
Definition calcReflectivity (k : kind) (g : grid) (D : matrix) (order : Z) (DH DT : R) (o : rock) : res rock :=
  let p := par (base o) in
  imp <- zipR Rmult (rho p) (match k with Acoustic => vP p | _ => vS p end) ;;
  A <- averageMatrix AY g ;;
  av <- matvec A imp ;;
  r <- matvec D imp ;;
  r <- zipR fdiv (map (fun x => x * (- DH / DT))%R r) (map (fun x => x * 2)%R av) ;;
  r <- silence (zseq 0 (Z.to_nat (Z.quot (order * gNX g * gNZ g) 2))) (gNX g * gNY g * gNZ g) r ;;
  let q := pet o in
  Ok (withPet o (mkPet (porosity q) (saturation q) r (rhoMa q) (muMa q) (kMa q))).

(** Scaling, addition, subtraction (Elastic.cpp 755-833 and the same in the other classes): porosity, saturation and reflectivity
    take part, the rock matrix does not. *)
Definition scalePet (p : petro) (c : R) : petro :=
  mkPet (map (fun x => x * c)%R (porosity p)) (map (fun x => x * c)%R (saturation p)) (map (fun x => fmul x (Num c)) (reflectivity p))
        (rhoMa p) (muMa p) (kMa p).
Definition combinePet (f : R -> R -> R) (h : fpv -> fpv -> fpv) (p q : petro) : res petro :=
  a <- zipR f (porosity p) (porosity q) ;;
  b <- zipR f (saturation p) (saturation q) ;;
  c <- zipR h (reflectivity p) (reflectivity q) ;;
  Ok (mkPet a b c (rhoMa p) (muMa p) (kMa p)).
(** Assignment: the rock matrix is taken over except in Acoustic.cpp 720-734; SH.cpp 709-725 and ViscoSH.cpp 739-761 have no bulk
    modulus. *)
Definition assignPet (k : kind) (p q : petro) : petro :=
  mkPet (porosity q) (saturation q) (reflectivity q)
        (match k with Acoustic => rhoMa p | _ => rhoMa q end) (match k with Acoustic => muMa p | _ => muMa q end)
        (match k with Elastic | Viscoelastic => kMa q | _ => kMa p end).
(** Copy constructor (e.g. Elastic.cpp 305-321): no rock matrix; parameterisation has its initial value (Modelparameter.hpp 286). *)
Definition copyRock (k : kind) (o : rock) : rock :=
  let p := pet o in mkRock (copy k (base o)) (mkPet (porosity p) (saturation p) (reflectivity p) [] [] []) 0.
(** A sum of objects: operator+ copies the left one and adds (e.g. Elastic.cpp 777-783). *)
Definition plusRock (k : kind) (o : rock) (q : params) (r : petro) : res rock :=
  let c := copyRock k o in
  p <- combineParams Rplus k (par (base c)) q ;;
  s <- combinePet Rplus fadd (pet c) r ;;
  Ok (mkRock (flagAll k (base c) p) s (parameterisation c)).

(** applyThresholds: the bounds are applied when the configuration asks for it ([phiTh], [refTh]); the masks always are (Acoustic.cpp
    65-81, SH.cpp 65-81, Elastic.cpp 75-92, ViscoSH.cpp 65-81, Viscoelastic.cpp 76-93). *)
Record petroTh := mkPT { phiTh : option (R * R * R * R); refTh : option (R * R) }.
Definition clipR (lo up : R) (v : list R) : list R :=
  map (fun x => if Rlt_dec up x then up else x) (map (fun x => if Rlt_dec x lo then lo else x) v).
Definition thresholdRock (k : kind) (t : thresholds) (u : petroTh) (o : rock) : res rock :=
  let p := pet o in
  q <- thresholdParams k t (par (base o)) ;;
  let m := mask (match k with Acoustic => vP (par (base o)) | _ => vS (par (base o)) end) in
  a <- zipR Rmult (match phiTh u with Some (l, h, _, _) => clipR l h (porosity p) | None => porosity p end) m ;;
  b <- zipR Rmult (match phiTh u with Some (_, _, l, h) => clipR l h (saturation p) | None => saturation p end) m ;;
  c <- zipR fmul (match refTh u with Some (l, h) => limit l h (reflectivity p) | None => reflectivity p end) (fp m) ;;
  Ok (mkRock (flagAll k (base o) q) (mkPet a b c (rhoMa p) (muMa p) (kMa p)) (parameterisation o)).

(** getModelPerShot: the rest of [M_Model.getModelPerShot] (Acoustic.cpp 105-120, SH.cpp 105-120, Elastic.cpp 122-140, ViscoSH.cpp
    108-123, Viscoelastic.cpp 126-144); [s] is the model of the shot. *)
Definition perShot (k : kind) (w : matrix) (o s : rock) : res rock :=
  let p := pet o in let q := pet s in
  m <- getModelPerShot k w (par (base o)) (base s) ;;
  a <- matvec w (porosity p) ;;
  b <- matvec w (saturation p) ;;
  c <- fmatvec w (reflectivity p) ;;
  let ask := petrophysical (parameterisation o) in
  x <- (if ask && hasP k then matvec w (kMa p) else Ok (kMa q)) ;;
  y <- (if ask && hasS k then matvec w (muMa p) else Ok (muMa q)) ;;
  z <- (if ask then matvec w (rhoMa p) else Ok (rhoMa q)) ;;
  Ok (mkRock m (mkPet a b c z y x) (parameterisation s)).

(** init with homogeneous values: porosity, saturation, reflectivity are zero (Acoustic.cpp 229-231, SH.cpp 189-191, Elastic.cpp
    254-256, ViscoSH.cpp 207-209, Viscoelastic.cpp 240-242).  [n] is the number of points. *)
Definition zeroPet (n : nat) (p : petro) : petro :=
  mkPet (repeat 0%R n) (repeat 0%R n) (repeat (Num 0) n) (rhoMa p) (muMa p) (kMa p).

(** init of a model on a variable grid from one on a regular grid: Acoustic.cpp 180-201, Elastic.cpp 205-229.  Only density and
    velocities are transferred. *)
Definition meshingRow (var reg : grid) (i : Z) : res row :=
  c <- index2coordinate var i ;; j <- coordinate2index reg c ;; Ok [(j, 1%R)].
Definition meshingMatrix (var reg : grid) : res matrix := fill (nGridpoints var) (nGridpoints reg) (meshingRow var reg).
Definition toVariableGrid (k : kind) (var reg : grid) (o : rock) : res rock :=
  let p := par (base o) in
  W <- meshingMatrix var reg ;;
  d <- matvec W (rho p) ;;
  v <- matvec W (vP p) ;;
  s <- (if hasS k then matvec W (vS p) else Ok (vS p)) ;;
  Ok (withBase o (flag (base o) (mkP v s d (tauP p) (tauS p) (freqs p) (nrel p) (cfreq p)) false false false false)).
