(** The stencil derivative matrices on a regular grid, for all axes: adjoint, norm and commutation. *)
From Coq Require Import QArith Qreals Reals Lra.
From Verif Require Import M_Grid M_Deriv S_Deriv L_Deriv L_Deriv2 M_Prog M_Solvers M_Env S_Solver S_Step S_Check L_Prog L_Lin L_Src L_Surface L_Leap L_Leap2.
Open Scope R_scope.

(** ** more on finite sums *)
Lemma Rsum_map_le {T} (l : list T) f g : (forall k, In k l -> f k <= g k) -> Rsum (map f l) <= Rsum (map g l).
Proof.
  unfold Rsum. induction l as [|a l IH]; intros H; cbn [map fold_right]; [lra|].
  pose proof (H a (or_introl eq_refl)). specialize (IH (fun k Hk => H k (or_intror Hk))). lra.
Qed.
Lemma Rsum_map_ext {T} (l : list T) f g : (forall k, In k l -> f k = g k) -> Rsum (map f l) = Rsum (map g l).
Proof. intros H. f_equal. apply map_ext_in. exact H. Qed.
Lemma Rsum_map_pos {T} (l : list T) f : (forall k, In k l -> 0 <= f k) -> 0 <= Rsum (map f l).
Proof. intros H. rewrite <- (Rsum_map_0 l (fun _ => 0)) by reflexivity. apply Rsum_map_le. exact H. Qed.
Lemma in_line n k : In k (zseq 0 (Z.to_nat n)) -> (0 <= k < n)%Z.
Proof. intros H. apply zseq_In in H. lia. Qed.
Lemma ls_le n f g : (forall k, (0 <= k < n)%Z -> f k <= g k) -> line_sum n f <= line_sum n g.
Proof. intros H. apply Rsum_map_le. intros k Hk. apply H, in_line, Hk. Qed.
Lemma gs_le nx ny nz f g : (forall x y z, (0 <= x < nx)%Z -> (0 <= y < ny)%Z -> (0 <= z < nz)%Z -> f (reg_index nx nz x y z) <= g (reg_index nx nz x y z)) ->
  grid_sum nx ny nz f <= grid_sum nx ny nz g.
Proof. intros H. unfold grid_sum. do 3 (apply ls_le; intros). apply H; auto. Qed.
Lemma gs_0 nx ny nz : grid_sum nx ny nz (fun _ => 0) = 0.
Proof. rewrite (gs_ext nx ny nz _ (fun i => 0 * 0)) by (intros; lra). rewrite gs_mul. lra. Qed.
Lemma gs_pos nx ny nz f : (forall x y z, (0 <= x < nx)%Z -> (0 <= y < ny)%Z -> (0 <= z < nz)%Z -> 0 <= f (reg_index nx nz x y z)) ->
  0 <= grid_sum nx ny nz f.
Proof. intros H. rewrite <- (gs_0 nx ny nz). apply gs_le. exact H. Qed.
Lemma gs_opp nx ny nz f : grid_sum nx ny nz (fun k => - f k) = - grid_sum nx ny nz f.
Proof. rewrite (gs_ext nx ny nz _ (fun k => -1 * f k)) by (intros; lra). rewrite gs_mul. lra. Qed.
Lemma gs_sub nx ny nz f g : grid_sum nx ny nz (fun k => f k - g k) = grid_sum nx ny nz f - grid_sum nx ny nz g.
Proof. rewrite (gs_ext nx ny nz _ (fun k => f k + - g k)) by (intros; lra). rewrite gs_add, gs_opp. lra. Qed.
Lemma gs_Rsum nx ny nz {T} (l : list T) f : grid_sum nx ny nz (fun i => Rsum (map (fun a => f a i) l)) = Rsum (map (fun a => grid_sum nx ny nz (f a)) l).
Proof.
  induction l as [|a l IH]; cbn [map]; [apply gs_0|]. change (Rsum (?x :: ?y)) with (x + Rsum y). rewrite <- IH, <- gs_add. reflexivity.
Qed.

(** weighted Cauchy-Schwarz inequality *)
Lemma cs_step c F S A B : 0 <= A -> 0 <= B -> S * S <= A * B -> (c * F + S) * (c * F + S) <= (Rabs c + A) * (Rabs c * (F * F) + B).
Proof.
  intros HA HB H.
  assert (K : 2 * (c * F) * S <= Rabs c * B + A * (Rabs c * (F * F))).
  { assert (G : forall s, 2 * F * s <= A * (F * F) + B \/ s * s > A * B).
    { intros s. destruct (Rle_dec (s * s) (A * B)) as [L|L]; [left|right; lra].
      destruct (Req_dec A 0) as [->|NA]; [assert (s = 0) by nra; subst; lra|].
      assert (0 < A) by lra. apply (Rmult_le_reg_l A); [assumption|]. pose proof (Rle_0_sqr (A * F - s)) as Q. unfold Rsqr in Q. nra. }
    unfold Rabs. destruct (Rcase_abs c) as [Hc|Hc].
    - destruct (G (- S)) as [L|L]; [|nra]. apply (Rmult_le_compat_l (- c)) in L; [|lra]. nra.
    - destruct (G S) as [L|L]; [|nra]. apply (Rmult_le_compat_l c) in L; [|lra]. nra. }
  assert (Rabs c * Rabs c = c * c) by (rewrite <- Rabs_mult; apply Rabs_pos_eq; nra).
  replace ((Rabs c + A) * (Rabs c * (F * F) + B)) with (Rabs c * Rabs c * (F * F) + (Rabs c * B + A * (Rabs c * (F * F))) + A * B) by ring. rewrite H0. nra.
Qed.
Lemma cs_list {T} (l : list T) (c F : T -> R) :
  Rsum (map (fun j => c j * F j) l) * Rsum (map (fun j => c j * F j) l) <=
  Rsum (map (fun j => Rabs (c j)) l) * Rsum (map (fun j => Rabs (c j) * (F j * F j)) l).
Proof.
  induction l as [|a l IH]; cbn [map]; [change (Rsum []) with 0; lra|]. change (Rsum (?x :: ?y)) with (x + Rsum y).
  apply cs_step; [apply Rsum_map_pos; intros; apply Rabs_pos| |exact IH].
  apply Rsum_map_pos; intros k _. apply Rmult_le_pos; [apply Rabs_pos|nra].
Qed.

(** sum of the absolute coefficients *)
Lemma Q2R_abs q : Q2R (Qabs q) = Rabs (Q2R q).
Proof.
  destruct (Qlt_le_dec q 0) as [H|H].
  - rewrite (Qeq_eqR _ (- q)) by (apply Qabs_neg; apply Qlt_le_weak, H). rewrite Q2R_opp. apply Qlt_Rlt in H. unfold Q2R at 2 in H. cbn in H. rewrite Rabs_left; lra.
  - rewrite (Qeq_eqR _ q) by (apply Qabs_pos, H). apply Qle_Rle in H. unfold Q2R at 1 in H. cbn in H. rewrite Rabs_pos_eq; lra.
Qed.
Lemma Q2R_qsum l : Q2R (qsum l) = Rsum (map Q2R l).
Proof. induction l as [|a l IH]; [unfold Q2R; cbn; lra|]. cbn [qsum fold_right map]. change (fold_right Qplus 0%Q l) with (qsum l). rewrite Q2R_plus, IH. reflexivity. Qed.
Lemma sum_abs p : supported p -> Rsum (map (fun j => Rabs (Q2R (stencil_at p j))) (zseq 0 (Z.to_nat p))) = 2 * fd_h p.
Proof.
  intros Hp. unfold fd_h.
  transitivity (Q2R (qsum (map (fun j => Qabs (stencil_at p j)) (zseq 0 (Z.to_nat p))))).
  - rewrite Q2R_qsum, map_map. apply Rsum_map_ext. intros j _. symmetry. apply Q2R_abs.
  - replace 2 with (Q2R 2) by (unfold Q2R; cbn; lra). rewrite <- Q2R_mult. apply Qeq_eqR.
    destruct Hp as [<-|[<-|[<-|[<-|[<-|[<-|[]]]]]]]; vm_compute; reflexivity.
Qed.
Lemma fd_h_pos p : supported p -> 0 < fd_h p.
Proof.
  intros Hp. replace 0 with (Q2R 0) by (unfold Q2R; cbn; lra). apply Qlt_Rlt. destruct Hp as [<-|[<-|[<-|[<-|[<-|[<-|[]]]]]]]; reflexivity.
Qed.

(** ** one line *)
Definition row_of (hb : bool) (p N i : Z) : list (Z * Q) := if hb then stencil_row_b p N i else stencil_row p N i.
Definition dline (hb : bool) (p N : Z) (k : R) (F : Z -> R) (i : Z) : R := Rsum (map (fun kc => (Q2R (snd kc) * k) * F (fst kc)) (row_of hb p N i)).
Lemma row_in hb p N i kc : In kc (row_of hb p N i) -> (0 <= fst kc < N)%Z.
Proof.
  unfold row_of, stencil_row, stencil_row_b. destruct hb; intros H; apply in_flat_map in H; destruct H as (j & _ & H); cbv zeta in H;
  destruct (on_line _ _) eqn:E; try destruct H; try contradiction; subst; cbn [fst]; unfold on_line in E; lia.
Qed.
Lemma dline_form hb p N k F i : dline hb p N k F i =
  Rsum (map (fun j => (Q2R (if hb then (- stencil_at p j)%Q else stencil_at p j) * k) *
    (let d := (if hb then - (j - (Z.quot p 2 - 1)) else j - (Z.quot p 2 - 1))%Z in if on_line N (i + d) then F (i + d)%Z else 0)) (zseq 0 (Z.to_nat p))).
Proof.
  unfold dline, row_of. destruct hb.
  - rewrite (row_b p N i (fun q => Q2R q * k) F). f_equal. apply map_ext. intros j. cbv zeta.
    replace (i + - (j - (Z.quot p 2 - 1)))%Z with (i - (j - (Z.quot p 2 - 1)))%Z by lia. destruct (on_line _ _); lra.
  - rewrite (row_f p N i (fun q => Q2R q * k) F). f_equal. apply map_ext. intros j. cbv zeta. destruct (on_line _ _); lra.
Qed.
Lemma line_bound hb p N k F : supported p ->
  line_sum N (fun i => dline hb p N k F i * dline hb p N k F i) <= (2 * fd_h p * k) * (2 * fd_h p * k) * line_sum N (fun i => F i * F i).
Proof.
  intros Hp. pose proof (fd_h_pos p Hp) as Hh.
  assert (W : Rsum (map (fun j => Rabs (Q2R (if hb then (- stencil_at p j)%Q else stencil_at p j) * k)) (zseq 0 (Z.to_nat p))) = 2 * fd_h p * Rabs k).
  { rewrite (Rsum_map_ext _ _ (fun j => Rabs k * Rabs (Q2R (stencil_at p j)))).
    - rewrite Rsum_map_mul, sum_abs by exact Hp. lra.
    - intros j _. rewrite Rabs_mult. destruct hb; [rewrite Q2R_opp, Rabs_Ropp|]; lra. }
  apply Rle_trans with (line_sum N (fun i => (2 * fd_h p * Rabs k) *
    Rsum (map (fun j => Rabs (Q2R (if hb then (- stencil_at p j)%Q else stencil_at p j) * k) *
      (let d := (if hb then - (j - (Z.quot p 2 - 1)) else j - (Z.quot p 2 - 1))%Z in if on_line N (i + d) then F (i + d)%Z * F (i + d)%Z else 0)) (zseq 0 (Z.to_nat p))))).
  - apply ls_le. intros i Hi. rewrite dline_form. eapply Rle_trans; [apply cs_list|]. cbv beta. rewrite W. apply Req_le. f_equal.
    apply Rsum_map_ext. intros j _. cbv zeta. destruct (on_line _ _); lra.
  - rewrite ls_mul. unfold line_sum at 1. rewrite Rsum_swap.
    apply Rle_trans with (2 * fd_h p * Rabs k * Rsum (map (fun j => Rabs (Q2R (if hb then (- stencil_at p j)%Q else stencil_at p j) * k) * line_sum N (fun i => F i * F i)) (zseq 0 (Z.to_nat p)))).
    + apply Rmult_le_compat_l; [pose proof (Rabs_pos k); nra|]. apply Rsum_map_le. intros j _. cbv zeta.
      set (d := (if hb then - (j - (Z.quot p 2 - 1)) else j - (Z.quot p 2 - 1))%Z). rewrite Rsum_map_mul. apply Rmult_le_compat_l; [apply Rabs_pos|].
      pose proof (ls_shift N d (fun i => F (i + d)%Z * F (i + d)%Z)) as G. unfold line_sum in G. rewrite G.
      apply (ls_le N). intros i _. replace (i - d + d)%Z with i by lia. destruct (on_line _ _); nra.
    + rewrite (Rsum_map_ext _ _ (fun j => line_sum N (fun i => F i * F i) * Rabs (Q2R (if hb then (- stencil_at p j)%Q else stencil_at p j) * k))) by (intros; lra).
      rewrite Rsum_map_mul, W. assert (Rabs k * Rabs k = k * k) by (rewrite <- Rabs_mult; apply Rabs_pos_eq; nra).
      apply Req_le. transitivity (4 * fd_h p * fd_h p * (Rabs k * Rabs k) * line_sum N (fun i => F i * F i)); [ring|]. rewrite H. ring.
Qed.
Lemma line_adj p N k P V : line_sum N (fun i => dline false p N k P i * V i) = - line_sum N (fun i => P i * dline true p N k V i).
Proof. apply (line_adjoint p N (fun q => Q2R q * k) P V). intros q. rewrite Q2R_opp. lra. Qed.

(** ** the grid *)
Section diff.
Variables (e : env R_arith) (c : cfg) (useVar hybrid : bool) (nx ny nz p : Z) (rest : list Z) (DH : Q) (fuel : nat)
  (k : R) (cv : Q -> R) (g : grid).
Hypothesis HM : @fd_matrices R_arith e c true useVar hybrid nx ny nz p rest DH fuel (fun q => Q2R q * k) cv g.
Notation gs := (grid_sum nx ny nz).
Notation ri := (reg_index nx nz).
Notation D := (Dmv e "").
(** the axis z only occurs on grids with at least two points in z direction *)
Definition ax_ok (d : axis) : Prop := d = AZ -> (2 <= nz)%Z.
Definition len (d : axis) : Z := match d with AX => nx | AY => ny | AZ => nz end.
Definition pos (d : axis) (x y z : Z) : Z := match d with AX => x | AY => y | AZ => z end.
Definition put (d : axis) (x y z X : Z) : Z := match d with AX => ri X y z | AY => ri x X z | AZ => ri x y X end.
Definition inside (x y z : Z) : Prop := (0 <= x < nx)%Z /\ (0 <= y < ny)%Z /\ (0 <= z < nz)%Z.

Lemma D_line d hb f x y z : ax_ok d -> inside x y z -> D d hb f (ri x y z) = dline hb p (len d) k (fun X => f (put d x y z X)) (pos d x y z).
Proof.
  intros Hd (Hx & Hy & Hz). unfold Dmv, dline, row_of.
  destruct d, hb; lazy beta iota zeta delta [dmat low append nm_s len pos put].
  - pose proof (fm_xb _ _ _ _ _ _ _ _ _ _ _ _ _ _ _ _ HM x y z Hx Hy Hz) as E. cbv zeta in E. unfold code_row, nm_s in E. rewrite E, mv_stencil. reflexivity.
  - pose proof (fm_xf _ _ _ _ _ _ _ _ _ _ _ _ _ _ _ _ HM x y z Hx Hy Hz) as E. cbv zeta in E. unfold code_row, nm_s in E. rewrite E, mv_stencil. reflexivity.
  - pose proof (fm_yb _ _ _ _ _ _ _ _ _ _ _ _ _ _ _ _ HM x y z Hx Hy Hz "Dyb"%string (or_introl eq_refl)) as E. cbv zeta in E. unfold code_row, nm_s in E. rewrite E, mv_stencil. reflexivity.
  - pose proof (fm_yf _ _ _ _ _ _ _ _ _ _ _ _ _ _ _ _ HM x y z Hx Hy Hz "Dyf"%string (or_introl eq_refl)) as E. cbv zeta in E. unfold code_row, nm_s in E. rewrite E, mv_stencil. reflexivity.
  - pose proof (fm_zb _ _ _ _ _ _ _ _ _ _ _ _ _ _ _ _ HM (Hd eq_refl) x y z Hx Hy Hz) as E. cbv zeta in E. unfold code_row, nm_s in E. rewrite E, mv_stencil. reflexivity.
  - pose proof (fm_zf _ _ _ _ _ _ _ _ _ _ _ _ _ _ _ _ HM (Hd eq_refl) x y z Hx Hy Hz) as E. cbv zeta in E. unfold code_row, nm_s in E. rewrite E, mv_stencil. reflexivity.
Qed.

(** the grid sum line by line *)
Definition lines (d : axis) (L : (Z -> Z) -> R) : R :=
  match d with
  | AX => line_sum ny (fun y => line_sum nz (fun z => L (fun X => ri X y z)))
  | AY => line_sum nx (fun x => line_sum nz (fun z => L (fun Y => ri x Y z)))
  | AZ => line_sum ny (fun y => line_sum nx (fun x => L (fun Z => ri x y Z)))
  end.
Lemma gs_lines d f : gs f = lines d (fun q => line_sum (len d) (fun X => f (q X))).
Proof.
  unfold grid_sum. destruct d; cbn [lines len].
  - reflexivity.
  - rewrite (ls_ext ny _ (fun y => line_sum nx (fun x => line_sum nz (fun z => f (ri x y z))))).
    + rewrite ls_swap. apply ls_ext. intros x _. apply ls_swap.
    + intros y _. apply ls_swap.
  - apply ls_ext. intros y _. apply ls_swap.
Qed.
(** what holds on each line holds on the grid *)
Definition is_line (d : axis) (q : Z -> Z) : Prop := exists x y z, (forall X, (0 <= X < len d)%Z -> 
  exists x' y' z', inside x' y' z' /\ q X = ri x' y' z' /\ pos d x' y' z' = X /\ forall Y, put d x' y' z' Y = put d x y z Y) /\ q = put d x y z.
Lemma lines_le d L L' : (forall q, is_line d q -> L q <= L' q) -> lines d L <= lines d L'.
Proof.
  intros H. destruct d; cbn [lines]; apply ls_le; intros a Ha; apply ls_le; intros b Hb; apply H.
  - exists 0%Z, a, b. split; [|reflexivity]. intros X HX. exists X, a, b. unfold inside. cbn [len] in HX. repeat split; try lia; reflexivity.
  - exists a, 0%Z, b. split; [|reflexivity]. intros X HX. exists a, X, b. unfold inside. cbn [len] in HX. repeat split; try lia; reflexivity.
  - exists b, a, 0%Z. split; [|reflexivity]. intros X HX. exists b, a, X. unfold inside. cbn [len] in HX. repeat split; try lia; reflexivity.
Qed.
Lemma lines_ext d L L' : (forall q, is_line d q -> L q = L' q) -> lines d L = lines d L'.
Proof. intros H. apply Rle_antisym; apply lines_le; intros q Hq; rewrite H by exact Hq; lra. Qed.
Lemma lines_mul d a L : lines d (fun q => a * L q) = a * lines d L.
Proof. destruct d; cbn [lines]; rewrite <- ls_mul; apply ls_ext; intros; apply ls_mul. Qed.
Lemma D_on_line d hb f q X : ax_ok d -> is_line d q -> (0 <= X < len d)%Z -> D d hb f (q X) = dline hb p (len d) k (fun Y => f (q Y)) X.
Proof.
  intros Hd (x & y & z & H & ->) HX. destruct (H X HX) as (x' & y' & z' & Hi & E & EX & EP). rewrite E, D_line by assumption. rewrite EX.
  unfold dline. apply Rsum_map_ext. intros kc _. rewrite EP. reflexivity.
Qed.

Lemma adj d P V : ax_ok d -> gs (fun i => D d false P i * V i) = - gs (fun i => P i * D d true V i).
Proof.
  intros Hd. rewrite !(gs_lines d). rewrite opp1, <- lines_mul. apply lines_ext. intros q Hq.
  rewrite (ls_ext (len d) (fun X => D d false P (q X) * V (q X)) (fun X => dline false p (len d) k (fun Y => P (q Y)) X * V (q X))).
  2:{ intros X HX. rewrite D_on_line by assumption. reflexivity. }
  rewrite (ls_ext (len d) (fun X => P (q X) * D d true V (q X)) (fun X => P (q X) * dline true p (len d) k (fun Y => V (q Y)) X)).
  2:{ intros X HX. rewrite D_on_line by assumption. reflexivity. }
  rewrite (line_adj p (len d) k (fun Y => P (q Y)) (fun Y => V (q Y))). lra.
Qed.
Lemma adj' d P V : ax_ok d -> gs (fun i => D d true P i * V i) = - gs (fun i => P i * D d false V i).
Proof.
  intros Hd. pose proof (adj d V P Hd) as H.
  rewrite (gs_ext nx ny nz (fun i => D d true P i * V i) (fun i => V i * D d true P i)) by (intros; lra).
  rewrite (gs_ext nx ny nz (fun i => P i * D d false V i) (fun i => D d false V i * P i)) by (intros; lra). lra.
Qed.
Lemma bound d hb P : supported p -> ax_ok d -> gs (fun i => D d hb P i * D d hb P i) <= (2 * fd_h p * k) * (2 * fd_h p * k) * gs (fun i => P i * P i).
Proof.
  intros Hp Hd. rewrite !(gs_lines d). rewrite <- lines_mul. apply lines_le. intros q Hq.
  rewrite (ls_ext (len d) (fun X => D d hb P (q X) * D d hb P (q X)) (fun X => dline hb p (len d) k (fun Y => P (q Y)) X * dline hb p (len d) k (fun Y => P (q Y)) X)).
  2:{ intros X HX. rewrite D_on_line by assumption. reflexivity. }
  apply (line_bound hb p (len d) k (fun Y => P (q Y)) Hp).
Qed.

(** derivatives along different axes commute *)
Lemma dline_swap hb hb' N N' i j (F : Z -> Z -> R) :
  dline hb p N k (fun X => dline hb' p N' k (fun Y => F X Y) j) i = dline hb' p N' k (fun Y => dline hb p N k (fun X => F X Y) i) j.
Proof.
  unfold dline.
  rewrite (Rsum_map_ext (row_of hb p N i) _ (fun kc => Rsum (map (fun kd => (Q2R (snd kc) * k) * ((Q2R (snd kd) * k) * F (fst kc) (fst kd))) (row_of hb' p N' j)))).
  2:{ intros kc _. rewrite Rsum_map_mul. reflexivity. }
  rewrite Rsum_swap. apply Rsum_map_ext. intros kd _. rewrite <- Rsum_map_mul. apply Rsum_map_ext. intros kc _. ring.
Qed.
Lemma dline_ext hb N F G i : (forall X, (0 <= X < N)%Z -> F X = G X) -> dline hb p N k F i = dline hb p N k G i.
Proof. intros H. unfold dline. apply Rsum_map_ext. intros kc Hk. rewrite H by (eapply row_in, Hk). reflexivity. Qed.
Lemma commute d d' hb hb' f x y z : d <> d' -> ax_ok d -> ax_ok d' -> inside x y z -> D d hb (D d' hb' f) (ri x y z) = D d' hb' (D d hb f) (ri x y z).
Proof.
  intros Hn Hd Hd' Hi. rewrite !D_line by assumption.
  rewrite (dline_ext hb _ _ (fun X => dline hb' p (len d') k (fun Y => f (match d, d' with
    | AX, AY => ri X Y z | AX, AZ => ri X y Y | AY, AX => ri Y X z | AY, AZ => ri x X Y | AZ, AX => ri Y y X | AZ, AY => ri x Y X | _, _ => 0%Z end)) (pos d' x y z))).
  2:{ intros X HX. destruct Hi as (Hx & Hy & Hz). destruct d, d'; try congruence; cbn [len pos put] in *; rewrite D_line by (try assumption; unfold inside; lia); reflexivity. }
  rewrite (dline_ext hb' _ (fun X => D d hb f (put d' x y z X)) (fun Y => dline hb p (len d) k (fun X => f (match d, d' with
    | AX, AY => ri X Y z | AX, AZ => ri X y Y | AY, AX => ri Y X z | AY, AZ => ri x X Y | AZ, AX => ri Y y X | AZ, AY => ri x Y X | _, _ => 0%Z end)) (pos d x y z))).
  2:{ intros Y HY. destruct Hi as (Hx & Hy & Hz). destruct d, d'; try congruence; cbn [len pos put] in *; rewrite D_line by (try assumption; unfold inside; lia); reflexivity. }
  apply dline_swap.
Qed.
(** equal fields on the grid have equal derivatives there *)
Lemma D_ext d hb f h x y z : ax_ok d -> inside x y z -> (forall x y z, inside x y z -> f (ri x y z) = h (ri x y z)) -> D d hb f (ri x y z) = D d hb h (ri x y z).
Proof.
  intros Hd (Hx & Hy & Hz) H. rewrite !D_line by (try assumption; unfold inside; auto). apply dline_ext. intros X HX.
  destruct d; cbn [put len] in *; apply H; unfold inside; auto.
Qed.
End diff.
Lemma D_add e dm d hb f h i : Dmv e dm d hb (fun j => f j + h j) i = Dmv e dm d hb f i + Dmv e dm d hb h i.
Proof. apply mv_add. Qed.
Lemma D_mul e dm d hb a f i : Dmv e dm d hb (fun j => a * f j) i = a * Dmv e dm d hb f i.
Proof. apply mv_mul. Qed.
Lemma D_sub e dm d hb f h i : Dmv e dm d hb (fun j => f j - h j) i = Dmv e dm d hb f i - Dmv e dm d hb h i.
Proof.
  transitivity (Dmv e dm d hb (fun j => f j + -1 * h j) i).
  - apply mv_ext. intros kc _. lra.
  - rewrite D_add, D_mul. lra.
Qed.
Lemma D_sum e dm d hb {T} (l : list T) (f : T -> Z -> R) i : Dmv e dm d hb (fun j => Rsum (map (fun a => f a j) l)) i = Rsum (map (fun a => Dmv e dm d hb (f a) i) l).
Proof.
  induction l as [|a l IH]; cbn [map].
  - change (Rsum []) with 0. unfold Dmv. rewrite mv_R. apply Rsum_map_0. intros kc _. cbn. lra.
  - change (Rsum (?x :: ?y)) with (x + Rsum y). rewrite <- IH. apply (D_add e dm d hb (f a) (fun j => Rsum (map (fun a => f a j) l))).
Qed.
