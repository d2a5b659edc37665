(** The matrices of M_Env.v exist on every regular grid. *)
From Coq Require Import QArith.
From Verif Require Import M_Grid M_Deriv S_Deriv L_Deriv L_Deriv2 L_Fd2 M_Prog M_Env L_Prog.
Open Scope Z_scope.

Section mk.
Variables (A : arith) (useStencil useVar hybrid : bool) (nx ny nz p : Z) (rest : list Z) (DH : Q) (fuel : nat)
  (cvs cv : Q -> num A) (g : grid).
Definition get_row (st : list (Z * Q)) (col : Z -> Z) (sp : res (list (Z * Q))) : list (Z * num A) :=
  if useStencil then stencil_entries cvs col st else match sp with Ok r => sparse_entries cv r | _ => [] end.
Definition get_row_fs (st : list (Z * Q)) (col : Z -> Z) (sp : res (list (Z * Q))) : list (Z * num A) :=
  (if hybrid then stencil_entries cvs col st else []) ++ match sp with Ok r => sparse_entries cv r | _ => [] end.
Definition matrices (M : nm) (i : Z) : list (Z * num A) :=
  match index2coordinate g i, M with
  | Ok (mkC x y z), N s _ =>
    if String.eqb s "Dxf" then get_row (stencil_row p nx x) (fun X => reg_index nx nz X y z) (calcDxf fuel g (p :: rest) useVar DH i)
    else if String.eqb s "Dxb" then get_row (stencil_row_b p nx x) (fun X => reg_index nx nz X y z) (calcDxb fuel g (p :: rest) useVar DH i)
    else if (String.eqb s "Dyf" || String.eqb s "DyfStaggeredX" || String.eqb s "DyfStaggeredZ")%bool
      then get_row (stencil_row p ny y) (fun Y => reg_index nx nz x Y z) (calcDyf fuel g (p :: rest) useVar false DH i)
    else if (String.eqb s "Dyb" || String.eqb s "DybStaggeredX" || String.eqb s "DybStaggeredZ")%bool
      then get_row (stencil_row_b p ny y) (fun Y => reg_index nx nz x Y z) (calcDyb fuel g (p :: rest) useVar false DH i)
    else if String.eqb s "Dzf" then get_row (stencil_row p nz z) (fun Z => reg_index nx nz x y Z) (calcDzf fuel g (p :: rest) useVar DH i)
    else if String.eqb s "Dzb" then get_row (stencil_row_b p nz z) (fun Z => reg_index nx nz x y Z) (calcDzb fuel g (p :: rest) useVar DH i)
    else if String.eqb s "DyfFreeSurface"
      then get_row_fs (stencil_row p ny y) (fun Y => reg_index nx nz x Y z) (calcDyfFreeSurface g (p :: rest) useVar false hybrid DH i)
    else if (String.eqb s "DybFreeSurface" || String.eqb s "DybStaggeredXFreeSurface" || String.eqb s "DybStaggeredZFreeSurface")%bool
      then get_row_fs (stencil_row_b p ny y) (fun Y => reg_index nx nz x Y z) (calcDybFreeSurface g (p :: rest) useVar hybrid DH i)
    else []
  | _, _ => []
  end.

Lemma get_row_ok st col sp r : sp = Ok r -> code_row useStencil cvs cv st col sp (get_row st col sp).
Proof. intros ->. unfold code_row, get_row. destruct useStencil; [reflexivity|]. exists r. auto. Qed.
Lemma get_row_fs_ok st col sp r : sp = Ok r -> code_row_fs hybrid cvs cv st col sp (get_row_fs st col sp).
Proof. intros ->. unfold code_row_fs, get_row_fs. exists r. auto. Qed.

Lemma matrices_ok c coef sca : mk_regular nx ny nz = Ok g -> supported p -> 2 <= nx -> 2 <= ny -> 15 <= Z.of_nat fuel ->
  fd_matrices (Env A matrices coef sca) c useStencil useVar hybrid nx ny nz p rest DH fuel cvs cv g.
Proof.
  intros Hg Hp Hnx Hny Hf. constructor; [exact Hg|..].
  - intros x y z Hx Hy Hz i. destruct (reg_Dxf nx ny nz g p rest useVar DH x y z fuel Hg Hp Hx Hy Hz Hf Hnx) as (r&E&_).
    cbn [e_mat]. unfold nm_s, matrices. subst i. rewrite (regular_i2c _ _ _ _ _ _ _ Hg Hx Hy Hz). eapply get_row_ok, E.
  - intros x y z Hx Hy Hz i. destruct (reg_Dxb nx ny nz g p rest useVar DH x y z fuel Hg Hp Hx Hy Hz Hf Hnx) as (r&E&_).
    cbn [e_mat]. unfold nm_s, matrices. subst i. rewrite (regular_i2c _ _ _ _ _ _ _ Hg Hx Hy Hz). eapply get_row_ok, E.
  - intros x y z Hx Hy Hz i M HM. destruct (reg_Dyf nx ny nz g p rest useVar DH x y z fuel Hg Hp Hx Hy Hz Hf Hny) as (r&E&_).
    cbn [e_mat]. unfold nm_s, matrices. subst i. rewrite (regular_i2c _ _ _ _ _ _ _ Hg Hx Hy Hz).
    destruct HM as [<-|[<-|[<-|[]]]]; eapply get_row_ok, E.
  - intros x y z Hx Hy Hz i M HM. destruct (reg_Dyb nx ny nz g p rest useVar DH x y z fuel Hg Hp Hx Hy Hz Hf Hny) as (r&E&_).
    cbn [e_mat]. unfold nm_s, matrices. subst i. rewrite (regular_i2c _ _ _ _ _ _ _ Hg Hx Hy Hz).
    destruct HM as [<-|[<-|[<-|[]]]]; eapply get_row_ok, E.
  - intros Hnz x y z Hx Hy Hz i. destruct (reg_Dzf nx ny nz g p rest useVar DH x y z fuel Hg Hp Hx Hy Hz Hf Hnz) as (r&E&_).
    cbn [e_mat]. unfold nm_s, matrices. subst i. rewrite (regular_i2c _ _ _ _ _ _ _ Hg Hx Hy Hz). eapply get_row_ok, E.
  - intros Hnz x y z Hx Hy Hz i. destruct (reg_Dzb nx ny nz g p rest useVar DH x y z fuel Hg Hp Hx Hy Hz Hf Hnz) as (r&E&_).
    cbn [e_mat]. unfold nm_s, matrices. subst i. rewrite (regular_i2c _ _ _ _ _ _ _ Hg Hx Hy Hz). eapply get_row_ok, E.
  - intros Hfs x y z Hx Hy Hz i. destruct (reg_DyfFS nx ny nz g p rest useVar DH x y z Hg Hp Hx Hy Hz hybrid) as (r&E&_).
    cbn [e_mat]. unfold nm_s, matrices. subst i. rewrite (regular_i2c _ _ _ _ _ _ _ Hg Hx Hy Hz). eapply get_row_fs_ok, E.
  - intros Hfs x y z Hx Hy Hz i M HM. destruct (reg_DybFS nx ny nz g p rest useVar DH x y z Hg Hp Hx Hy Hz hybrid) as (r&E&_).
    cbn [e_mat]. unfold nm_s, matrices. subst i. rewrite (regular_i2c _ _ _ _ _ _ _ Hg Hx Hy Hz).
    destruct HM as [<-|[<-|[<-|[]]]]; eapply get_row_fs_ok, E.
Qed.
End mk.
