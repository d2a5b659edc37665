(** Properties C09-C14: finite-difference derivative matrices. *)
From Coq Require Import Qabs Lqa.
From Verif Require Import Base M_Grid S_Grid L_Grid P_Grid M_Deriv S_Deriv L_Deriv L_Deriv2 L_Fd L_Fd2.
Open Scope Z_scope.

(** ** C09 *)
(** Coefficient [j] of order [p] sits (2j-(p-1))/2 cells from the midpoint. *)
Theorem C09_antisymmetric : forall p j, In p [2; 4; 6; 8; 10; 12] -> (stencil_at p (p - 1 - j) == - stencil_at p j)%Q.
Proof. intros p j H. exact (stencil_antisym p j H). Qed.
Print Assumptions C09_antisymmetric.

Theorem C09_exact : forall p (l : list Q) (x h : Q), In p [2; 4; 6; 8] -> ~ (h == 0)%Q -> Z.of_nat (length l) <= p + 1 ->
  (qsum_to p (fun j => stencil_at p j / h * peval l (x + inject_Z (2 * j - (p - 1)) / 2 * h)) == peval (pder l) x)%Q.
Proof. intros p l x h H1 H2 H3. exact (fd_exact p l x h H1 H2 H3). Qed.
Print Assumptions C09_exact.
Example C09_ex : (qsum_to 8 (fun j => stencil_at 8 j / (1#2) * peval [3;0;0;1;0;0;0;0;2] ((5#1) + inject_Z (2 * j - 7) / 2 * (1#2))) == 1250075)%Q.
Proof. vm_compute. reflexivity. Qed.

(** Orders 10 and 12 are rounded to binary fractions: with the Taylor coefficients [s] of the polynomial at the midpoint
    the error is at most 3e-12 times the sum of |s_k| h^(k-1), k >= 1. *)
Theorem C09_near : forall p (l : list Q) (x h : Q), In p [2; 4; 6; 8; 10; 12] -> ~ (h == 0)%Q -> Z.of_nat (length l) <= p + 1 ->
  exists s : list Q, length s = length l /\ (forall t, (peval s t == peval l (x + t))%Q) /\
  (Qabs (qsum_to p (fun j => stencil_at p j / h * peval l (x + inject_Z (2 * j - (p - 1)) / 2 * h)) - peval (pder l) x)
    <= (3 # 1000000000000) * wsize s (Qabs h))%Q.
Proof. intros p l x h H1 H2 H3. exact (fd_near p l x h H1 H2 H3). Qed.
Print Assumptions C09_near.
Example C09_near_ex : In 12 [2; 4; 6; 8; 10; 12] /\ Z.of_nat (length [1;2;0;0;0;0;0;0;0;0;0;0;5]%Q) <= 12 + 1.
Proof. split; [simpl; auto 10|simpl; lia]. Qed.

(** ** C10 *)
(** [orders] is the list of configured orders; on a regular grid the first entry counts.  15 units of fuel, i.e. at most
    15 (re)starts of the loop body, suffice for every size.  *)
Theorem C10_Dx_rows : forall nx ny nz g p rest useVar DH x y z fuel,
  mk_regular nx ny nz = Ok g -> In p [2; 4; 6; 8; 10; 12] -> 0 <= x < nx -> 0 <= y < ny -> 0 <= z < nz -> 2 <= nx -> 15 <= Z.of_nat fuel ->
  (exists row, calcDxf fuel g (p :: rest) useVar DH (reg_index nx nz x y z) = Ok row /\
     forward_row nx (DH * inject_Z 1)%Q (fun X => reg_index nx nz X y z) stencil_at p x row) /\
  (exists row, calcDxb fuel g (p :: rest) useVar DH (reg_index nx nz x y z) = Ok row /\
     backward_row nx (DH * inject_Z 1)%Q (fun X => reg_index nx nz X y z) stencil_at p x row).
Proof. intros. split; [apply (reg_Dxf nx ny)|apply (reg_Dxb nx ny)]; assumption. Qed.
Print Assumptions C10_Dx_rows.
Theorem C10_Dy_rows : forall nx ny nz g p rest useVar DH x y z fuel,
  mk_regular nx ny nz = Ok g -> In p [2; 4; 6; 8; 10; 12] -> 0 <= x < nx -> 0 <= y < ny -> 0 <= z < nz -> 2 <= ny -> 15 <= Z.of_nat fuel ->
  (exists row, calcDyf fuel g (p :: rest) useVar false DH (reg_index nx nz x y z) = Ok row /\
     forward_row ny (DH * inject_Z 1)%Q (fun Y => reg_index nx nz x Y z) stencil_at p y row) /\
  (exists row, calcDyb fuel g (p :: rest) useVar false DH (reg_index nx nz x y z) = Ok row /\
     backward_row ny (DH * inject_Z 1)%Q (fun Y => reg_index nx nz x Y z) stencil_at p y row).
Proof. intros. split; [apply (reg_Dyf nx ny)|apply (reg_Dyb nx ny)]; assumption. Qed.
Print Assumptions C10_Dy_rows.
Theorem C10_Dz_rows : forall nx ny nz g p rest useVar DH x y z fuel,
  mk_regular nx ny nz = Ok g -> In p [2; 4; 6; 8; 10; 12] -> 0 <= x < nx -> 0 <= y < ny -> 0 <= z < nz -> 2 <= nz -> 15 <= Z.of_nat fuel ->
  (exists row, calcDzf fuel g (p :: rest) useVar DH (reg_index nx nz x y z) = Ok row /\
     forward_row nz (DH * inject_Z 1)%Q (fun Z => reg_index nx nz x y Z) stencil_at p z row) /\
  (exists row, calcDzb fuel g (p :: rest) useVar DH (reg_index nx nz x y z) = Ok row /\
     backward_row nz (DH * inject_Z 1)%Q (fun Z => reg_index nx nz x y Z) stencil_at p z row).
Proof. intros. split; [apply (reg_Dzf nx ny)|apply (reg_Dzb nx ny)]; assumption. Qed.
Print Assumptions C10_Dz_rows.
(** the row of point (1,2,0) of a 5x4x1 grid, requested order 6: reduced to 4, all four points in the line *)
Example C10_ex : exists g, mk_regular 5 4 1 = Ok g /\ exists row, calcDxf 15 g [6] false 2 (reg_index 5 1 1 2 0) = Ok row /\
  map fst row = [10; 11; 12; 13] /\ map (fun e => Qred (snd e)) row = [1 # 48; -9 # 16; 9 # 16; -1 # 48]%Q.
Proof. eexists; split; [reflexivity|]. eexists; split; [vm_compute; reflexivity|]. split; reflexivity. Qed.

(** ** C11 *)
(** Slope exactly for orders up to 8, with relative error at most 3e-16 for orders 10 and 12; constants always give 0. *)
Definition C11_row (N : Z) (h : Q) (colf : Z -> Z) (p : Z) (row : list (Z * Q)) : Prop :=
  forall (f : Z -> Q) (a b : Q), (forall X, 0 <= X < N -> (f (colf X) == a + b * (inject_Z X * h))%Q) ->
   ((b == 0)%Q -> (apply_row row f == 0)%Q) /\ (In p [2; 4; 6; 8] -> (apply_row row f == b)%Q) /\
   (Qabs (apply_row row f - b) <= (3 # 10000000000000000) * Qabs b)%Q.
Theorem C11_consistent : forall nx ny nz g p rest useVar DH x y z fuel, 
  mk_regular nx ny nz = Ok g -> In p [2; 4; 6; 8; 10; 12] -> 0 <= x < nx -> 0 <= y < ny -> 0 <= z < nz -> 15 <= Z.of_nat fuel ->
  ~ (DH == 0)%Q -> let i := reg_index nx nz x y z in let h := (DH * inject_Z 1)%Q in
  (2 <= nx -> exists rf rb, calcDxf fuel g (p :: rest) useVar DH i = Ok rf /\ calcDxb fuel g (p :: rest) useVar DH i = Ok rb /\
     C11_row nx h (fun X => reg_index nx nz X y z) p rf /\ C11_row nx h (fun X => reg_index nx nz X y z) p rb) /\
  (2 <= ny -> exists rf rb, calcDyf fuel g (p :: rest) useVar false DH i = Ok rf /\ calcDyb fuel g (p :: rest) useVar false DH i = Ok rb /\
     C11_row ny h (fun Y => reg_index nx nz x Y z) p rf /\ C11_row ny h (fun Y => reg_index nx nz x Y z) p rb) /\
  (2 <= nz -> exists rf rb, calcDzf fuel g (p :: rest) useVar DH i = Ok rf /\ calcDzb fuel g (p :: rest) useVar DH i = Ok rb /\
     C11_row nz h (fun Z => reg_index nx nz x y Z) p rf /\ C11_row nz h (fun Z => reg_index nx nz x y Z) p rb).
Proof.
  intros nx ny nz g p rest useVar DH x y z fuel Hg Hp Hx Hy Hz Hf HD i h.
  assert (Hh : ~ (h == 0)%Q) by (unfold h; change (inject_Z 1) with 1%Q; rewrite Qmult_1_r; exact HD).
  split; [|split]; intros HN.
  - destruct (C10_Dx_rows nx ny nz g p rest useVar DH x y z fuel Hg Hp Hx Hy Hz HN Hf) as ((rf&E1&R1)&(rb&E2&R2)).
    exists rf, rb. split; [exact E1|]. split; [exact E2|]. split; apply (row_consistent nx h _ p _ Hh); eauto using fwd_supported, bwd_supported.
  - destruct (C10_Dy_rows nx ny nz g p rest useVar DH x y z fuel Hg Hp Hx Hy Hz HN Hf) as ((rf&E1&R1)&(rb&E2&R2)).
    exists rf, rb. split; [exact E1|]. split; [exact E2|]. split; apply (row_consistent ny h _ p _ Hh); eauto using fwd_supported, bwd_supported.
  - destruct (C10_Dz_rows nx ny nz g p rest useVar DH x y z fuel Hg Hp Hx Hy Hz HN Hf) as ((rf&E1&R1)&(rb&E2&R2)).
    exists rf, rb. split; [exact E1|]. split; [exact E2|]. split; apply (row_consistent nz h _ p _ Hh); eauto using fwd_supported, bwd_supported.
Qed.
Print Assumptions C11_consistent.

(** ** C12 *)
(** Stencil implementation, one axis with [N] points: [Df_stencil] drops the coefficients that leave the grid, the backward
    matrix is computed as minus its transpose.  The backward matrix is then the backward stencil (points i-p/2 .. i+p/2-1),
    and both satisfy discrete integration by parts for all fields. *)
Theorem C12_stencil : forall p N h, In p [2; 4; 6; 8; 10; 12] ->
  (forall i k, (Db_stencil p N h i k == - Df_stencil p N h k i)%Q) /\
  (forall i k, 0 <= i < N -> 0 <= k < N -> (Df_stencil p N h i k == stencil_at p (k - (i - p / 2 + 1)) / h)%Q /\
                                          (Db_stencil p N h i k == stencil_at p (k - (i - p / 2)) / h)%Q) /\
  (forall u v : Z -> Q, (qsum_to N (fun i => u i * qsum_to N (fun k => Df_stencil p N h i k * v k)) ==
     - qsum_to N (fun k => v k * qsum_to N (fun i => Db_stencil p N h k i * u i)))%Q).
Proof.
  intros p N h Hp. split; [intros; reflexivity|]. split.
  - intros i k Hi Hk. split.
    + unfold Df_stencil, on_line. replace ((0 <=? i) && (i <? N) && _)%bool with true by lia.
      destruct (supported_even p Hp) as (m&->&Hm). rewrite quot2. replace (2 * m / 2) with m by (rewrite Z.mul_comm, Z.div_mul; lia).
      replace (k - (i - m + 1)) with (k - i + m - 1) by lia. reflexivity.
    + rewrite (Db_explicit p N h i k Hp). unfold on_line. replace ((0 <=? i) && (i <? N) && _)%bool with true by lia.
      replace (k - (i - p / 2)) with (k - i + p / 2) by lia. reflexivity.
  - intros u v. exact (summation_by_parts p N (Z.to_nat N) h u v).
Qed.
Print Assumptions C12_stencil.

(** Sparse implementation (variable grids or variable order): never the negative adjoint, on no grid and for no order; the
    corner entry has the wrong sign. *)
Theorem C12_sparse_refuted : forall nx ny nz g p rest useVar DH y z fuel,
  mk_regular nx ny nz = Ok g -> In p [2; 4; 6; 8; 10; 12] -> 0 <= y < ny -> 0 <= z < nz -> 2 <= nx -> 15 <= Z.of_nat fuel -> ~ (DH == 0)%Q ->
  let i := reg_index nx nz 0 y z in
  exists rf rb, calcDxf fuel g (p :: rest) useVar DH i = Ok rf /\ calcDxb fuel g (p :: rest) useVar DH i = Ok rb /\
    ~ (entry rb i == - entry rf i)%Q.
Proof.
  intros nx ny nz g p rest useVar DH y z fuel Hg Hp Hy Hz HN Hf HD i.
  destruct (C10_Dx_rows nx ny nz g p rest useVar DH 0 y z fuel Hg Hp ltac:(lia) Hy Hz HN Hf) as ((rf&E1&R1)&(rb&E2&R2)).
  exists rf, rb. split; [exact E1|]. split; [exact E2|].
  assert (Inj : forall X X', 0 <= X < nx -> 0 <= X' < nx -> reg_index nx nz X y z = reg_index nx nz X' y z -> X = X') by (intros; apply (inj_x nx nz y z); lia).
  pose proof (fwd_corner _ _ _ _ _ HN Hp R1 Inj) as C1. pose proof (bwd_corner _ _ _ _ _ HN Hp R2 Inj) as C2.
  unfold i. cbv beta in C1, C2. rewrite C1, C2. change (inject_Z 1) with 1%Q. intros E.
  assert (E0 : (- (1) / (DH * 1) == 0)%Q) by lra.
  assert (E' : (1 == - (- (1) / (DH * 1)) * DH)%Q) by (field; assumption). rewrite E0 in E'. lra.
Qed.
Print Assumptions C12_sparse_refuted.
Example C12_sparse_ex : exists g rf rb, mk_regular 6 4 1 = Ok g /\ calcDxf 15 g [4] false 1 (reg_index 6 1 0 2 0) = Ok rf /\
  calcDxb 15 g [4] false 1 (reg_index 6 1 0 2 0) = Ok rb /\ Qred (entry rf 12) = (-1 # 1)%Q /\ Qred (entry rb 12) = (-1 # 1)%Q.
Proof. do 3 eexists. repeat (split; [vm_compute; reflexivity|]). vm_compute. reflexivity. Qed.

(** Where the full stencil fits, the sparse rows are the rows of the stencil matrices, hence negative adjoints there. *)
Theorem C12_sparse_interior_partial : forall nx ny nz g p rest useVar DH x y z fuel,
  mk_regular nx ny nz = Ok g -> In p [2; 4; 6; 8; 10; 12] -> 0 <= x < nx -> 0 <= y < ny -> 0 <= z < nz -> 2 <= nx -> 15 <= Z.of_nat fuel ->
  let i := reg_index nx nz x y z in let h := (DH * inject_Z 1)%Q in
  exists rf rb, calcDxf fuel g (p :: rest) useVar DH i = Ok rf /\ calcDxb fuel g (p :: rest) useVar DH i = Ok rb /\
   (p / 2 - 1 <= x < nx - p / 2 -> forall X, 0 <= X < nx -> (entry rf (reg_index nx nz X y z) == Df_stencil p nx h x X)%Q) /\
   (p / 2 <= x <= nx - p / 2 -> forall X, 0 <= X < nx -> (entry rb (reg_index nx nz X y z) == Db_stencil p nx h x X)%Q).
Proof.
  intros nx ny nz g p rest useVar DH x y z fuel Hg Hp Hx Hy Hz HN Hf i h.
  destruct (C10_Dx_rows nx ny nz g p rest useVar DH x y z fuel Hg Hp Hx Hy Hz HN Hf) as ((rf&E1&R1)&(rb&E2&R2)).
  exists rf, rb. split; [exact E1|]. split; [exact E2|].
  assert (Inj : forall X X', 0 <= X < nx -> 0 <= X' < nx -> reg_index nx nz X y z = reg_index nx nz X' y z -> X = X') by (intros; apply (inj_x nx nz y z); lia).
  split; intros HH X HX.
  - exact (fwd_row_interior _ _ _ _ _ _ X Hp R1 Inj HH HX).
  - exact (bwd_row_interior _ _ _ _ _ _ X Hp R2 Inj HH HX ltac:(lia)).
Qed.
Print Assumptions C12_sparse_interior_partial.

(** ** C13 *)
(** On every variable grid, at the left edge of every layer with factor 3 or more and for every order above 2, the row of
    the x-derivative is empty. *)
Theorem C13_coarse_edge_refuted : forall fuel g orders useVar DH idx c layer l p b, (2 <= fuel)%nat ->
  index2coordinate g idx = Ok c -> cx c = 0 -> getLayer g (cy c) = Ok layer -> vget (layers g) layer = Ok l -> 3 <= ldh l ->
  order_at orders useVar layer = Ok p -> In p [2; 4; 6; 8; 10; 12] -> 4 <= p -> locatedOnInterface g (cy c) = Ok b ->
  calcDxf fuel g orders useVar DH idx = Ok [].
Proof. exact coarse_empty. Qed.
Print Assumptions C13_coarse_edge_refuted.
Example C13_ex : exists g, init_variable 9 30 70 30 [1;3;9;3] [7;20;47] = Ok g /\ index2coordinate g 4232 = Ok (mkC 0 10 0) /\
  getLayer g 10 = Ok 1 /\ calcDxf 15 g [4] false 1 4232 = Ok [] /\ exists e r, calcDxf 15 g [4] false 1 4233 = Ok (e :: r).
Proof. eexists. split; [vm_compute; reflexivity|]. repeat (split; [vm_compute; reflexivity|]). do 2 eexists. vm_compute. reflexivity. Qed.

(** A stencil that fits is never reduced, whatever the spacing factor and the interface offset of the row. *)
Theorem C13_fitting_rows_partial : forall dh sh N h col colf x k fuel, 1 <= k <= 6 -> 2 * k < Z.of_nat fuel ->
  0 <= x + sh + dh * (- k + 1) -> x + sh + dh * k < N ->
  (forall j, 0 <= j < 2 * k -> col (x + sh + dh * (j - k + 1)) = Ok (colf (x + sh + dh * (j - k + 1)))) ->
  row_fwd fuel dh sh N h col x (2 * k) 0 [] =
    Ok (map (fun i => (colf (x + sh + dh * (i - k + 1)), (stencil_at (2 * k) i / h)%Q)) (zseq 0 (Z.to_nat (2 * k)))).
Proof. intros. exact (row_fwd_fit dh sh N h col colf (Z.to_nat (2 * k)) fuel x k 0 [] ltac:(assumption) ltac:(lia) ltac:(lia) ltac:(lia) ltac:(assumption) ltac:(assumption) ltac:(assumption)). Qed.
Print Assumptions C13_fitting_rows_partial.

(** ** C14 *)
(** [odd_full]/[odd_half]: the field on the rows 0..ny-1 continued as an odd function about row 0 / about the level half a
    cell above row 0, zero beyond the last row.  Both with separate sparse matrices ([row]) and with the hybrid form (stencil
    matrix plus sparse correction [rowh]). *)
Theorem C14_Dyf_image : forall nx ny nz g p rest useVar DH x y z,
  mk_regular nx ny nz = Ok g -> In p [2; 4; 6; 8; 10; 12] -> 0 <= x < nx -> 0 <= y < ny -> 0 <= z < nz ->
  let h := (DH * inject_Z 1)%Q in let colf Y := reg_index nx nz x Y z in
  exists row rowh,
  calcDyfFreeSurface g (p :: rest) useVar false false DH (reg_index nx nz x y z) = Ok row /\
  calcDyfFreeSurface g (p :: rest) useVar false true DH (reg_index nx nz x y z) = Ok rowh /\
  forall f : Z -> Q, let D := qsum_to p (fun j => stencil_at p j / h * odd_full ny (fun Y => f (colf Y)) (y + j - p / 2 + 1))%Q in
    (apply_row row f == D)%Q /\
    (qsum_to ny (fun Y => Df_stencil p ny h y Y * f (colf Y)) + apply_row rowh f == D)%Q.
Proof. exact reg_DyfFS_image. Qed.
Print Assumptions C14_Dyf_image.
Theorem C14_Dyb_image : forall nx ny nz g p rest useVar DH x y z,
  mk_regular nx ny nz = Ok g -> In p [2; 4; 6; 8; 10; 12] -> 0 <= x < nx -> 0 <= y < ny -> 0 <= z < nz ->
  let h := (DH * inject_Z 1)%Q in let colf Y := reg_index nx nz x Y z in
  exists row rowh,
  calcDybFreeSurface g (p :: rest) useVar false DH (reg_index nx nz x y z) = Ok row /\
  calcDybFreeSurface g (p :: rest) useVar true DH (reg_index nx nz x y z) = Ok rowh /\
  forall f : Z -> Q, let D := qsum_to p (fun j => stencil_at p j / h * odd_half ny (fun Y => f (colf Y)) (y + j - p / 2))%Q in
    (apply_row row f == D)%Q /\
    (qsum_to ny (fun Y => Db_stencil p ny h y Y * f (colf Y)) + apply_row rowh f == D)%Q.
Proof. exact reg_DybFS_image. Qed.
Print Assumptions C14_Dyb_image.
(** The continuations are odd and agree with the field below the surface. *)
Theorem C14_extension_odd : forall NY f Y, (odd_full NY f (- Y) == - odd_full NY f Y)%Q /\ (odd_half NY f (- 1 - Y) == - odd_half NY f Y)%Q /\
  (0 < Y < NY -> (odd_full NY f Y == f Y)%Q) /\ (0 <= Y < NY -> (odd_half NY f Y == f Y)%Q).
Proof.
  intros. unfold odd_full, odd_half. replace (- - Y) with Y by lia. replace (- 1 - (- 1 - Y)) with Y by lia.
  repeat split; try ring; intros H; unfold restrict.
  - replace ((0 <=? Y) && (Y <? NY))%bool with true by lia. replace ((0 <=? - Y) && (- Y <? NY))%bool with false by lia. ring.
  - replace ((0 <=? Y) && (Y <? NY))%bool with true by lia. replace ((0 <=? - 1 - Y) && (- 1 - Y <? NY))%bool with false by lia. ring.
Qed.
Print Assumptions C14_extension_odd.
Example C14_ex : exists g row, mk_regular 3 8 1 = Ok g /\ calcDyfFreeSurface g [6] false false false 1 (reg_index 3 1 1 1 0) = Ok row /\
  map fst row = [1; 4; 7; 10; 13] /\ map (fun e => Qred (snd e)) row = [0 # 1; -747 # 640; 75 # 64; -25 # 384; 3 # 640]%Q.
Proof. do 2 eexists. split; [reflexivity|]. split; [vm_compute; reflexivity|]. split; [reflexivity|]. reflexivity. Qed.
