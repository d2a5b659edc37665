(** Specification vocabulary for the electromagnetic parameters; uses only the data types of the model. *)
From Coq Require Import Reals.
From Verif Require Import Base M_Grid M_Average M_Common M_ModelEM S_Model.
Local Open Scope R_scope.

(** Velocity 1/sqrt(eps mu) where this is a number, else 0. *)
Definition em_velocity_at (e m : fpv) : fpv :=
  match e, m with Num e, Num m => Num (if Rlt_dec 0 (e * m) then / sqrt (e * m) else 0) | _, _ => Num 0 end.
Definition em_velocity (e m v : list fpv) : Prop :=
  length m = length e /\ length v = length e /\
  forall i x y, nth_error e i = Some x -> nth_error m i = Some y -> nth_error v i = Some (em_velocity_at x y).

(** Relaxation with the frequencies [fs] seen at frequency [fc]: the mean over f of (fc/f)^2 / (1 + (fc/f)^2), and of
    2 pi fc (fc/f) / (1 + (fc/f)^2). *)
Definition relA (fc : R) (fs : list R) : R := relaxation fc fs / INR (length fs).
Definition relB (fc : R) (fs : list R) : R :=
  2 * PI * fc * fold_right Rplus 0 (map (fun f => (fc / f) / (1 + (fc / f) ^ 2)) fs) / INR (length fs).
(** Vacuum values. *)
Definition vacuum_permittivity : R := 8.8541878176e-12.
Definition vacuum_permeability : R := 1.2566370614e-6.
(** Real effective permittivity and conductivity of a medium with static values e, s and relaxation strengths te, ts. *)
Definition eff_eps (fc : R) (fs : list R) (e s te ts : R) : R := e * (1 - relA fc fs * te) + s * ts.
Definition eff_sigma (fc : R) (fs : list R) (e s te : R) : R := s + relB fc fs * te * e.
(** The determinant of the linear map from static to effective values. *)
Definition eff_det (fc : R) (fs : list R) (te ts : R) : R := 1 - relA fc fs * te - relB fc fs * te * ts.

(** A vector of numbers. *)
Definition numbers (v : list fpv) : Prop := Forall (fun x => exists r, x = Num r) v.
(** The element [i] of [v] is the number [r]. *)
Definition at_ (v : list fpv) (i : nat) (r : R) : Prop := nth_error v i = Some (Num r).

(** The object has the centre frequency [fc] and the relaxation frequencies [fs]. *)
Definition relaxes (p : eparams) (fc : R) (fs : list R) : Prop :=
  ecf p = Some fc /\ (1 <= enrel p <= Z.of_nat (length (efreqs p)))%Z /\ fs = firstn (Z.to_nat (enrel p)) (efreqs p) /\ Forall (fun f => f <> 0) fs.
(** The permittivity that determines the velocity: the static one, or in the classes with relaxation the real effective one, at
    least that of vacuum; without mechanisms it is not a number. *)
Definition effective (k : emkind) (p : eparams) (e : list fpv) : Prop :=
  if evisco k then
    length e = length (eps p) /\
    (forall fc fs, relaxes p fc fs -> forall i ei si te ts, at_ (eps p) i ei -> at_ (sigma p) i si -> at_ (tauEps p) i te -> at_ (tauSig p) i ts ->
       at_ e i (Rmax vacuum_permittivity (eff_eps fc fs ei si te ts))) /\
    (enrel p = 0%Z -> Forall (eq NaN) e)
  else e = eps p.
Definition is_velocity (k : emkind) (p : eparams) (v : list fpv) : Prop := exists e, effective k p e /\ em_velocity e (mu p) v.

(** The vectors of an object by name. *)
Definition get (p : eparams) (f : field) : list fpv :=
  match f with FMu => mu p | FSigma => sigma p | FEps => eps p | FTauSig => tauSig p | FTauEps => tauEps p | FPor => por p | FSat => sat p
  | FRefl => refl p | FSigW => sigW p | FEpsRM => epsRM p end.
(** The vectors that a class computes with. *)
Definition held (k : emkind) (f : field) : bool :=
  match f with FMu | FSigma | FEps | FPor | FSat | FRefl => true | FTauSig | FTauEps => evisco k | _ => false end.
(** All vectors except the listed ones are the same. *)
Definition only (fs : list field) (p q : eparams) : Prop := forall f, ~ In f fs -> get q f = get p f.
Definition mechanisms_kept (p q : eparams) : Prop := efreqs q = efreqs p /\ enrel q = enrel p /\ ecf q = ecf p.
Definition times (c : R) (a r : list fpv) : Prop := length r = length a /\ forall i x, at_ a i x -> at_ r i (x * c).
Definition pointwise (f : R -> R -> R) (a b r : list fpv) : Prop :=
  length a = length b /\ length r = length a /\ forall i x y, at_ a i x -> at_ b i y -> at_ r i (f x y).
(** The direction or plane of the averaging matrix of a vector: the permeabilities of the two-dimensional classes live at the
    places of the magnetic fields Hy and Hx, half a step in x and in y. *)
Definition eplace (k : emkind) (q : quantity) (x : avgkind) : avgkind :=
  if is3D k then x else match x with AXZ => AX | AYZ => AY | _ => x end.
(** The averaged vectors that a class computes. *)
Definition offered (k : emkind) (q : quantity) (x : avgkind) : Prop :=
  match q with
  | QInvMu => if is3D k then In x [AXY; AXZ; AYZ] else In x [AXZ; AYZ]
  | QSigma | QEps => is3D k = true /\ In x [AX; AY; AZ]
  | QTauSigma | QTauEps => k = ViscoEMEM /\ In x [AX; AY; AZ]
  end.
Definition quantity_field (q : quantity) : field := match q with QInvMu => FMu | QSigma => FSigma | QTauSigma => FTauSig | QEps => FEps | QTauEps => FTauEps end.
(** [v] is the average of the current parameter with the rows of the matrix of its place. *)
Definition is_average (k : emkind) (g : grid) (p : eparams) (q : quantity) (x : avgkind) (v : list fpv) : Prop :=
  exists M, averageMatrix (eplace k q x) g = Ok M /\ length v = length (mrows M) /\
  forall l, get p (quantity_field q) = map Num l -> exists a, v = map Num a /\
    match q with QInvMu => inverse_average (mrows M) l a | _ => plain_average (mrows M) l a end.
