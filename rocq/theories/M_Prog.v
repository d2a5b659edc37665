(** Time stepping as straight-line programs over named grid vectors.

    The [run] methods of the fourteen forward solvers (src/ForwardSolver/ForwardSolver*.cpp and
    src/ForwardSolverEM/ForwardSolver*.cpp) contain no loop over grid points and no data dependent
    branch: each is a sequence of LAMA vector statements such as [update = Dxf * p],
    [update *= inverseDensityAverageX], [vX += update], guarded by configuration flags.  This file
    gives the statements and their meaning, file M_Solvers.v the programs.

    Simplifications: vectors are functions from grid indices to numbers, all statements act on every
    index (distribution over processes is not modelled); the arithmetic is a parameter [arith], so
    that statements about which values influence which hold for floating-point numbers too;
    [temp = a; temp *= x] is fused into one statement [ICoef temp a x]. *)
From Coq Require Export String.
From Coq Require Import QArith.
From Verif Require Export Base.
Open Scope Z_scope.

(** A vector, matrix or scalar name; the number is the index l of a relaxation mechanism, e.g.
    [N "Rxx" l] for [Rxx\[l\]], 0 for names that are not arrays. *)
Inductive nm : Type := N (s : string) (l : nat).
Definition nm_s (s : string) : nm := N s 0.
Coercion nm_s : string >-> nm.
Definition nm_eqb (a b : nm) : bool :=
  match a, b with N s l, N s' l' => String.eqb s s' && Nat.eqb l l' end.

(** Scalars: literals of the source text or named scalars. *)
Inductive sc : Type := SQ (q : Q) | SN (n : nm).

(** Seismogram component types (src/Acquisition/Acquisition.hpp, enums SeismogramType and
    SeismogramTypeEM, in one type). *)
Inductive stype : Type := TP | TVX | TVY | TVZ | TEZ | TEX | TEY | THZ.

(** The LAMA statements used by the solvers. *)
Inductive instr : Type :=
| IMv (r D s : nm)          (* r = D * s;            matrix times vector *)
| ICp (r s : nm)            (* r = s; *)
| IScal (r : nm) (k : sc) (s : nm)   (* r = k * s;   scalar times vector *)
| ICoef (r c s : nm)        (* r = c * s;            model vector c times vector s, elementwise *)
| ISum (r s1 s2 : nm)       (* r = s1 + s2; *)
| IDif (r s1 s2 : nm)       (* r = s1 - s2; *)
| IMulV (r c : nm)          (* r *= c;               model vector, elementwise *)
| IMulS (r : nm) (k : sc)   (* r *= k;               scalar *)
| IAdd (r s : nm)           (* r += s; *)
| ISub (r s : nm)           (* r -= s; *)
| IAddS (r : nm) (k : sc) (s : nm)   (* r += k * s; *)
| ISubS (r : nm) (k : sc) (s : nm)   (* r -= k * s; *)
| ISwap (r s : nm)          (* r.swap(s); *)
| ISrc (r : nm) (ty : stype). (* applySource: scatter-add of the samples of all sources of type ty *)

(** Number system used by the vectors: addition, subtraction, multiplication and literals.  No laws
    are assumed; [R_arith] (L_Lin.v) is the instance with exact real arithmetic. *)
Record arith : Type := Arith {
  num : Type;
  a_add : num -> num -> num;
  a_sub : num -> num -> num;
  a_mul : num -> num -> num;
  a_q : Q -> num }.

Section prog.
Variable A : arith.
Notation K := (num A).

(** Meaning of the names that a time step only reads: matrices as lists of (column, entry) per row,
    model and boundary vectors, scalars. *)
Record env : Type := Env {
  e_mat : nm -> Z -> list (Z * K);
  e_coef : nm -> Z -> K;
  e_sca : nm -> K }.

(** The wavefields, PML memory vectors and auxiliary vectors. *)
Definition state : Type := nm -> Z -> K.

(** Source signals: for each type the list of (grid index, signal) (1-D coordinates and rows of the
    source seismogram, src/Acquisition/Seismogram.hpp). *)
Definition acq : Type := stype -> list (Z * (nat -> K)).

Definition upd (st : state) (r : nm) (f : Z -> K) : state :=
  fun r' => if nm_eqb r r' then f else st r'.

Definition scal (e : env) (k : sc) : K :=
  match k with SQ q => a_q A q | SN n => e_sca e n end.

(** Row i of a sparse matrix times a vector. *)
Definition mv (row : list (Z * K)) (x : Z -> K) : K :=
  fold_left (fun acc kc => a_add A acc (a_mul A (snd kc) (x (fst kc)))) row (a_q A 0).

(** SourceReceiverImpl.cpp applySourceSingle (lines 29-37): getColumn(temp, t) then
    wavefield.scatter(coordinates, true, temp, ADD): one addition per source, in order; [true]
    says that coordinates may repeat. *)
Definition scatter (l : list (Z * (nat -> K))) (t : nat) (f : Z -> K) : Z -> K :=
  fun i => fold_left (fun acc js => if fst js =? i then a_add A acc (snd js t) else acc) l (f i).

Definition exec1 (e : env) (src : acq) (t : nat) (ins : instr) (st : state) : state :=
  match ins with
  | IMv r D s => upd st r (fun i => mv (e_mat e D i) (st s))
  | ICp r s => upd st r (st s)
  | IScal r k s => upd st r (fun i => a_mul A (scal e k) (st s i))
  | ICoef r c s => upd st r (fun i => a_mul A (e_coef e c i) (st s i))
  | ISum r s1 s2 => upd st r (fun i => a_add A (st s1 i) (st s2 i))
  | IDif r s1 s2 => upd st r (fun i => a_sub A (st s1 i) (st s2 i))
  | IMulV r c => upd st r (fun i => a_mul A (st r i) (e_coef e c i))
  | IMulS r k => upd st r (fun i => a_mul A (st r i) (scal e k))
  | IAdd r s => upd st r (fun i => a_add A (st r i) (st s i))
  | ISub r s => upd st r (fun i => a_sub A (st r i) (st s i))
  | IAddS r k s => upd st r (fun i => a_add A (st r i) (a_mul A (scal e k) (st s i)))
  | ISubS r k s => upd st r (fun i => a_sub A (st r i) (a_mul A (scal e k) (st s i)))
  | ISwap r s => upd (upd st r (st s)) s (st r)
  | ISrc r ty => upd st r (scatter (src ty) t (st r))
  end.

Definition exec (e : env) (src : acq) (t : nat) (p : list instr) (st : state) : state :=
  fold_left (fun st ins => exec1 e src t ins st) p st.

End prog.

Arguments e_mat {A} _ _ _.
Arguments e_coef {A} _ _ _.
Arguments e_sca {A} _ _.
Arguments upd {A} _ _ _ _.
Arguments mv {A} _ _.
Arguments scal {A} _ _.
Arguments scatter {A} _ _ _ _.
Arguments exec1 {A} _ _ _ _ _ _ _.
Arguments exec {A} _ _ _ _ _ _ _.

(** Configuration flags that select the statements of a program.
    [c_pml], [c_damp]: useConvPML, useDampingBoundary (ForwardSolver.cpp prepareBoundaries 33-53);
    [c_fs]: useFreeSurface (0 off, 1 image method, 2 improved vacuum formulation);
    [c_itF], [c_itX], [c_itZ], [c_itXZ]: whether the pointers getInterFull(), getInterStaggeredX(),
    getInterStaggeredZ(), getInterStaggeredXZ() are non-null (variable grid);
    [c_L]: numRelaxationMechanisms. *)
Record cfg : Type := Cfg {
  c_pml : bool; c_damp : bool; c_fs : Z;
  c_itF : bool; c_itX : bool; c_itZ : bool; c_itXZ : bool;
  c_L : nat }.

(** A forward solver: the statements of [run] before applySource, the vectors into which sources of a
    type are injected (None: the code throws), the vectors from which a receiver of a type reads (their
    sum, times the factor if there is one; None: throws), the order in which applySource and
    gatherSeismogram treat the types, the vectors zeroed by resetWavefields and by resetCPML. *)
Record solver : Type := Solver {
  s_run : cfg -> list instr;
  s_types : list stype;
  s_inj : stype -> option (list nm);
  s_out : stype -> option (list nm * option Q);
  s_fields : cfg -> list nm;
  s_psi : list nm }.

(** applySource(t) of SourceReceiverImplSeismic.cpp / SourceReceiverImplEM.cpp for the supported types
    (a type without traces adds nothing). *)
Definition src_prog (s : solver) : list instr :=
  flat_map (fun ty => match s_inj s ty with Some rs => map (fun r => ISrc r ty) rs | None => [] end)
           (s_types s).

(** One call of [run] up to the gathering of the seismograms. *)
Definition step_prog (s : solver) (c : cfg) : list instr := s_run s c ++ src_prog s.

Section sim.
Variable A : arith.
Notation K := (num A).

(** Whether every source and receiver type in use is implemented; otherwise applySource or
    gatherSeismogram throws. *)
Definition ok_types {T} (f : stype -> option T) {U} (a : stype -> list U) (tys : list stype) : bool :=
  forallb (fun ty => match a ty with [] => true | _ => match f ty with Some _ => true | None => false end end) tys.

(** gatherSeismogram: one number per receiver.  gatherInto(v, coordinates, COPY / ADD), then the
    factor (FDTD2Delastic.cpp 25-28: [*= 0.5]; FDTD3Delastic.cpp: [/= 3], modelled as [*= 1/3];
    FDTDacoustic.cpp: [*= 1]). *)
Definition readout (o : list nm * option Q) (st : state A) (i : Z) : K :=
  let v := match fst o with
           | [] => a_q A 0
           | r :: rs => fold_left (fun acc r' => a_add A acc (st r' i)) rs (st r i)
           end in
  match snd o with Some q => a_mul A v (a_q A q) | None => v end.

Definition gather (s : solver) (rec : stype -> list Z) (st : state A) : list (list K) :=
  map (fun ty => match s_out s ty with
                 | Some o => map (readout o st) (rec ty)
                 | None => []
                 end) (s_types s).

(** A shot: the meaning of matrices and model vectors, the sources, the receivers, the number of time
    steps. *)
Record shot : Type := Shot {
  sh_env : env A; sh_src : acq A; sh_rec : stype -> list Z; sh_n : nat }.

(** resetVector / resetWavefield: vector = 0 (CPML.cpp 7-11, Wavefields.cpp 9-13). *)
Definition zero_regs (rs : list nm) (st : state A) : state A :=
  fold_left (fun st r => upd st r (fun _ => a_q A 0)) rs st.

(** One call of [run]: the statements, the sources, one column of the seismogram. *)
Definition run_step (s : solver) (c : cfg) (sh : shot) (t : nat) (st : state A) : state A * list (list K) :=
  let st' := exec (sh_env sh) (sh_src sh) t (step_prog s c) st in
  (st', gather s (sh_rec sh) st').

(** The time loop of src/Simulation.cpp (435-...): [for tStep = 0; tStep < tStepEnd; tStep++ solver->run(...)].
    [steps s c sh t0 n st]: n steps starting with time index t0; the list of recorded columns. *)
Fixpoint steps (s : solver) (c : cfg) (sh : shot) (t0 n : nat) (st : state A) : state A * list (list (list K)) :=
  match n with
  | O => (st, [])
  | S n' => let (st1, col) := run_step s c sh t0 st in
            let (st2, cols) := steps s c sh (S t0) n' st1 in
            (st2, col :: cols)
  end.

(** Body of the shot loop of src/Simulation.cpp (≈ 427-): resetWavefields, the time loop, resetCPML
    (which acts only if useConvPML, ForwardSolver*.cpp resetCPML).  Output options, compensation and
    wavefield decomposition are not modelled. *)
Definition run_shot (s : solver) (c : cfg) (sh : shot) (st : state A) : state A * list (list (list K)) :=
  let st0 := zero_regs (s_fields s c) st in
  let (st1, seis) := steps s c sh 0 (sh_n sh) st0 in
  ((if c_pml c then zero_regs (s_psi s) st1 else st1), seis).

Fixpoint run_shots (s : solver) (c : cfg) (shs : list shot) (st : state A) : state A * list (list (list (list K))) :=
  match shs with
  | [] => (st, [])
  | sh :: shs' => let (st1, seis) := run_shot s c sh st in
                  let (st2, rest) := run_shots s c shs' st1 in
                  (st2, seis :: rest)
  end.

(** The same with the exceptions thrown for unsupported source or receiver types. *)
Definition simulate (s : solver) (c : cfg) (shs : list shot) (st : state A)
  : res (state A * list (list (list (list K)))) :=
  if forallb (fun sh => Nat.eqb (sh_n sh) 0 ||
                        (ok_types (s_inj s) (sh_src sh) (s_types s) &&
                         ok_types (s_out s) (sh_rec sh) (s_types s))) shs
  then Ok (run_shots s c shs st) else Throw.

End sim.

Arguments readout {A} _ _ _.
Arguments gather {A} _ _ _.
Arguments sh_env {A} _.
Arguments sh_src {A} _.
Arguments sh_rec {A} _.
Arguments sh_n {A} _.
Arguments zero_regs {A} _ _ _ _.
Arguments run_step {A} _ _ _ _ _.
Arguments steps {A} _ _ _ _ _ _.
Arguments run_shot {A} _ _ _ _.
Arguments run_shots {A} _ _ _ _.
Arguments simulate {A} _ _ _ _.
