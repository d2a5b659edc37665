(** The matrices read by the solver programs, on regular grids. *)
From Coq Require Import QArith.
From Verif Require Import M_Grid M_Deriv M_Prog S_Deriv.
Open Scope Z_scope.
Open Scope list_scope.

(** Row i of the LAMA stencil matrix of order p on a line of N points (Derivatives.cpp 112-120, 194-200, 288-295):
    entry stencil[j] at column i + j - (p/2-1), entries that leave the grid are dropped. *)
Definition stencil_row (p N i : Z) : list (Z * Q) :=
  flat_map (fun j => let k := i + j - (Z.quot p 2 - 1) in if on_line N k then [(k, stencil_at p j)] else [])
           (zseq 0 (Z.to_nat p)).
(** Row i of its negative transpose (FDTD2D.cpp 171-174: Dxb = transpose(Dxf); Dxb.scale(-1.0)). *)
Definition stencil_row_b (p N i : Z) : list (Z * Q) :=
  flat_map (fun j => let k := i - j + (Z.quot p 2 - 1) in if on_line N k then [(k, (- stencil_at p j)%Q)] else [])
           (zseq 0 (Z.to_nat p)).

Section env.
Variable A : arith.
Notation K := (M_Prog.num A).

(** A matrix row of the running program, built from a stencil row or from an assembled sparse row.  [cvs] and [cv] turn
    coefficients into stored numbers: conversion to ValueType and multiplication by DT / DH (stencil matrices,
    FDTD2D.cpp 176-180) resp. by DT (sparse matrices, FDTD2D.cpp 212-215, 253-262). *)
Definition stencil_entries (cvs : Q -> K) (col : Z -> Z) (r : list (Z * Q)) : list (Z * K) :=
  map (fun kc => (col (fst kc), cvs (snd kc))) r.
Definition sparse_entries (cv : Q -> K) (r : list (Z * Q)) : list (Z * K) := map (fun kc => (fst kc, cv (snd kc))) r.

Definition code_row (useStencil : bool) (cvs cv : Q -> K) (st : list (Z * Q)) (col : Z -> Z) (sp : res (list (Z * Q)))
  (row : list (Z * K)) : Prop :=
  if useStencil then row = stencil_entries cvs col st
  else exists r, sp = Ok r /\ row = sparse_entries cv r.

(** Free surface matrices: assembled sparse rows, or (useHybridFreeSurface) the stencil matrix plus a sparse correction
    (Derivatives.cpp 360-440, 442-526, getters 1772-1833). *)
Definition code_row_fs (hybrid : bool) (cvs cv : Q -> K) (st : list (Z * Q)) (col : Z -> Z) (sp : res (list (Z * Q)))
  (row : list (Z * K)) : Prop :=
  exists r, sp = Ok r /\ row = (if hybrid then stencil_entries cvs col st else []) ++ sparse_entries cv r.

(** The matrices of FDTD2D.cpp / FDTD3D.cpp initializeMatrices and initializeFreeSurfaceMatrices on the regular grid
    nx x ny x nz with spatial order p, seen through the getters (Derivatives.cpp 1770-1945: without variable grid the
    "staggered" variants are the plain ones).  Dz matrices exist only in 3-D; the free surface matrices only with free
    surface ([c_fs] = 1).  Dyf is purged in acoustic runs with free surface (FDTD2D.cpp 277), where no statement reads it. *)
Record fd_matrices (e : env A) (c : cfg) (useStencil useVar hybrid : bool) (nx ny nz p : Z) (rest : list Z) (DH : Q) (fuel : nat)
  (cvs cv : Q -> K) (g : grid) : Prop := {
  fm_grid : mk_regular nx ny nz = Ok g;
  fm_xf : forall x y z, 0 <= x < nx -> 0 <= y < ny -> 0 <= z < nz -> let i := reg_index nx nz x y z in
    code_row useStencil cvs cv (stencil_row p nx x) (fun X => reg_index nx nz X y z) (calcDxf fuel g (p :: rest) useVar DH i) (e_mat e "Dxf"%string i);
  fm_xb : forall x y z, 0 <= x < nx -> 0 <= y < ny -> 0 <= z < nz -> let i := reg_index nx nz x y z in
    code_row useStencil cvs cv (stencil_row_b p nx x) (fun X => reg_index nx nz X y z) (calcDxb fuel g (p :: rest) useVar DH i) (e_mat e "Dxb"%string i);
  fm_yf : forall x y z, 0 <= x < nx -> 0 <= y < ny -> 0 <= z < nz -> let i := reg_index nx nz x y z in
    forall M, In M ["Dyf"; "DyfStaggeredX"; "DyfStaggeredZ"]%string ->
    code_row useStencil cvs cv (stencil_row p ny y) (fun Y => reg_index nx nz x Y z) (calcDyf fuel g (p :: rest) useVar false DH i) (e_mat e M i);
  fm_yb : forall x y z, 0 <= x < nx -> 0 <= y < ny -> 0 <= z < nz -> let i := reg_index nx nz x y z in
    forall M, In M ["Dyb"; "DybStaggeredX"; "DybStaggeredZ"]%string ->
    code_row useStencil cvs cv (stencil_row_b p ny y) (fun Y => reg_index nx nz x Y z) (calcDyb fuel g (p :: rest) useVar false DH i) (e_mat e M i);
  fm_zf : 2 <= nz -> forall x y z, 0 <= x < nx -> 0 <= y < ny -> 0 <= z < nz -> let i := reg_index nx nz x y z in
    code_row useStencil cvs cv (stencil_row p nz z) (fun Z => reg_index nx nz x y Z) (calcDzf fuel g (p :: rest) useVar DH i) (e_mat e "Dzf"%string i);
  fm_zb : 2 <= nz -> forall x y z, 0 <= x < nx -> 0 <= y < ny -> 0 <= z < nz -> let i := reg_index nx nz x y z in
    code_row useStencil cvs cv (stencil_row_b p nz z) (fun Z => reg_index nx nz x y Z) (calcDzb fuel g (p :: rest) useVar DH i) (e_mat e "Dzb"%string i);
  fm_fsf : c_fs c = 1 -> forall x y z, 0 <= x < nx -> 0 <= y < ny -> 0 <= z < nz -> let i := reg_index nx nz x y z in
    code_row_fs hybrid cvs cv (stencil_row p ny y) (fun Y => reg_index nx nz x Y z)
      (calcDyfFreeSurface g (p :: rest) useVar false hybrid DH i) (e_mat e "DyfFreeSurface"%string i);
  fm_fsb : c_fs c = 1 -> forall x y z, 0 <= x < nx -> 0 <= y < ny -> 0 <= z < nz -> let i := reg_index nx nz x y z in
    forall M, In M ["DybFreeSurface"; "DybStaggeredXFreeSurface"; "DybStaggeredZFreeSurface"]%string ->
    code_row_fs hybrid cvs cv (stencil_row_b p ny y) (fun Y => reg_index nx nz x Y z)
      (calcDybFreeSurface g (p :: rest) useVar hybrid DH i) (e_mat e M i) }.
End env.
Arguments code_row {A}.
Arguments code_row_fs {A}.
Arguments fd_matrices {A}.
Arguments stencil_entries {A}.
Arguments sparse_entries {A}.

