(** Finite propagation speed: the rows of the code and the induction over time steps. *)
From Coq Require Import QArith.
From Verif Require Import M_Grid M_Deriv S_Deriv L_Deriv L_Deriv2 L_Fd2 M_Prog M_Solvers M_Env S_Solver L_Prog L_Shape L_Live L_Src L_Cone L_ConeA.
Open Scope Z_scope.

Definition width (useStencil : bool) (p : Z) : Z := if useStencil then p - 1 else Z.max (p - 1) 3.

Lemma in_zseq s n k : In k (zseq s n) <-> s <= k < s + Z.of_nat n.
Proof.
  revert s. induction n as [|n IH]; intros s; cbn [zseq In]; [lia|]. rewrite IH. lia.
Qed.

Lemma stencil_row_cols p N i kc : supported p -> In kc (stencil_row p N i) -> 0 <= fst kc < N /\ Z.abs (2 * fst kc - 2 * i - 1) <= p - 1.
Proof.
  intros Hp H. unfold stencil_row in H. apply in_flat_map in H. destruct H as (j&Hj&H). apply in_zseq in Hj.
  destruct (on_line N _) eqn:E in H; [|destruct H]. destruct H as [<-|[]]. cbn [fst]. unfold on_line in E.
  destruct (supported_even p Hp) as (k&->&Hk). rewrite quot2 in *. lia.
Qed.
Lemma stencil_row_b_cols p N i kc : supported p -> In kc (stencil_row_b p N i) -> 0 <= fst kc < N /\ Z.abs (2 * fst kc - 2 * i - -1) <= p - 1.
Proof.
  intros Hp H. unfold stencil_row_b in H. apply in_flat_map in H. destruct H as (j&Hj&H). apply in_zseq in Hj.
  destruct (on_line N _) eqn:E in H; [|destruct H]. destruct H as [<-|[]]. cbn [fst]. unfold on_line in E.
  destruct (supported_even p Hp) as (k&->&Hk). rewrite quot2 in *. lia.
Qed.

Lemma forward_cols N h colf p x row kc : 2 <= N -> 0 <= x < N -> supported p -> forward_row N h colf stencil_at p x row -> In kc row ->
  exists X, 0 <= X < N /\ fst kc = colf X /\ Z.abs (2 * X - 2 * x - 1) <= Z.max (p - 1) 3.
Proof.
  intros HN Hx Hp (k&x0&Hk&Hkp&(H0&H1&->&_)&HA&HB) H. apply in_map_iff in H. destruct H as (j&<-&Hj). apply in_zseq in Hj. cbn [fst].
  exists (x0 + j). split; [lia|]. split; [reflexivity|].
  destruct (Z.eq_dec x (N - 1)) as [E|E]; [destruct (HB E); lia|destruct (HA ltac:(lia)); lia].
Qed.
Lemma backward_cols N h colf p x row kc : 2 <= N -> 0 <= x < N -> supported p -> backward_row N h colf stencil_at p x row -> In kc row ->
  exists X, 0 <= X < N /\ fst kc = colf X /\ Z.abs (2 * X - 2 * x - -1) <= Z.max (p - 1) 3.
Proof.
  intros HN Hx Hp (k&x0&Hk&Hkp&(H0&H1&->&_)&HA&HB) H. apply in_map_iff in H. destruct H as (j&<-&Hj). apply in_zseq in Hj. cbn [fst].
  exists (x0 + j). split; [lia|]. split; [reflexivity|].
  destruct (Z.eq_dec x 0) as [E|E]; [destruct (HB E); lia|destruct (HA ltac:(lia)); lia].
Qed.
Lemma fs_cols NY h colf base o hybrid y p kc : supported p -> (base = 2 /\ o = 1 \/ base = 1 /\ o = 0) ->
  In kc (flat_map (fs_entry NY h colf base o hybrid y (p / 2)) (zseq 0 (Z.to_nat p))) ->
  exists Y, 0 <= Y < NY /\ fst kc = colf Y /\ Z.abs (2 * Y - 2 * y - (2 * o - 1)) <= p - 1.
Proof.
  intros Hp Ho H. apply in_flat_map in H. destruct H as (j&Hj&H). apply in_zseq in Hj. unfold fs_entry in H. cbv zeta in H.
  destruct ((0 <=? y + 1 * (j - p / 2 + o)) && (y + 1 * (j - p / 2 + o) <? NY))%bool eqn:E; [|destruct H].
  exists (y + 1 * (j - p / 2 + o)). split; [lia|].
  assert (K : fst kc = colf (y + 1 * (j - p / 2 + o))).
  { destruct (negb hybrid); [destruct H as [<-|[]]; reflexivity|]. destruct (Qeq_bool _ _); [destruct H|destruct H as [<-|[]]; reflexivity]. }
  split; [exact K|]. destruct (supported_even p Hp) as (k&->&Hk). replace (2 * k / 2) with k in * by (rewrite Z.mul_comm, Z.div_mul; lia).
  clear K H. lia.
Qed.

Section rows.
Variables (A : arith) (e : env A) (c : cfg) (useStencil useVar hybrid : bool) (nx ny nz p : Z) (rest : list Z) (DH : Q) (fuel : nat)
  (cvs cv : Q -> num A) (g : grid) (d3 : bool).
Hypothesis HM : fd_matrices e c useStencil useVar hybrid nx ny nz p rest DH fuel cvs cv g.
Hypotheses (Hp : supported p) (Hnx : 2 <= nx) (Hny : 2 <= ny) (Hnz : d3 = true -> 2 <= nz) (Hf : 15 <= Z.of_nat fuel).
Notation W := (width useStencil p).

Lemma rows_reach : reaches A e nx ny nz W (c_fs c =? 1) d3.
Proof.
  destruct HM as [Hg Hxf Hxb Hyf Hyb Hzf Hzb Hff Hfb].
  assert (P2 : 2 <= p) by (destruct (supported_even p Hp) as (k&->&Hk); lia).
  constructor.
  - intros x y z Hx Hy Hz kc Hk. specialize (Hxf x y z Hx Hy Hz). cbv zeta in Hxf. unfold code_row, width in *. destruct useStencil.
    + cbn [nm_s] in Hxf. unfold nm_s in Hxf. rewrite Hxf in Hk. apply in_map_iff in Hk. destruct Hk as (q&<-&Hq).
      destruct (stencil_row_cols _ _ _ _ Hp Hq). eexists; split; [eassumption|]. split; [reflexivity|assumption].
    + destruct Hxf as (r&Hr&E). unfold nm_s in E. rewrite E in Hk. apply in_map_iff in Hk. destruct Hk as (q&<-&Hq). cbn [fst].
      destruct (reg_Dxf nx ny nz g p rest useVar DH x y z fuel Hg Hp Hx Hy Hz Hf Hnx) as (r'&Hr'&FR). rewrite Hr in Hr'. injection Hr' as <-.
      destruct (forward_cols _ _ _ _ _ _ _ Hnx Hx Hp FR Hq) as (X&HX&EX&HA). exists X. auto.
  - intros x y z Hx Hy Hz kc Hk. specialize (Hxb x y z Hx Hy Hz). cbv zeta in Hxb. unfold code_row, width in *. destruct useStencil.
    + unfold nm_s in Hxb. rewrite Hxb in Hk. apply in_map_iff in Hk. destruct Hk as (q&<-&Hq).
      destruct (stencil_row_b_cols _ _ _ _ Hp Hq). eexists; split; [eassumption|]. split; [reflexivity|assumption].
    + destruct Hxb as (r&Hr&E). unfold nm_s in E. rewrite E in Hk. apply in_map_iff in Hk. destruct Hk as (q&<-&Hq). cbn [fst].
      destruct (reg_Dxb nx ny nz g p rest useVar DH x y z fuel Hg Hp Hx Hy Hz Hf Hnx) as (r'&Hr'&FR). rewrite Hr in Hr'. injection Hr' as <-.
      destruct (backward_cols _ _ _ _ _ _ _ Hnx Hx Hp FR Hq) as (X&HX&EX&HA). exists X. auto.
  - intros M HMn x y z Hx Hy Hz kc Hk. specialize (Hyf x y z Hx Hy Hz). cbv zeta in Hyf. specialize (Hyf M HMn). unfold code_row, width in *. destruct useStencil.
    + unfold nm_s in Hyf. rewrite Hyf in Hk. apply in_map_iff in Hk. destruct Hk as (q&<-&Hq).
      destruct (stencil_row_cols _ _ _ _ Hp Hq). eexists; split; [eassumption|]. split; [reflexivity|assumption].
    + destruct Hyf as (r&Hr&E). unfold nm_s in E. rewrite E in Hk. apply in_map_iff in Hk. destruct Hk as (q&<-&Hq). cbn [fst].
      destruct (reg_Dyf nx ny nz g p rest useVar DH x y z fuel Hg Hp Hx Hy Hz Hf Hny) as (r'&Hr'&FR). rewrite Hr in Hr'. injection Hr' as <-.
      destruct (forward_cols _ _ _ _ _ _ _ Hny Hy Hp FR Hq) as (X&HX&EX&HA). exists X. auto.
  - intros M HMn x y z Hx Hy Hz kc Hk. specialize (Hyb x y z Hx Hy Hz). cbv zeta in Hyb. specialize (Hyb M HMn). unfold code_row, width in *. destruct useStencil.
    + unfold nm_s in Hyb. rewrite Hyb in Hk. apply in_map_iff in Hk. destruct Hk as (q&<-&Hq).
      destruct (stencil_row_b_cols _ _ _ _ Hp Hq). eexists; split; [eassumption|]. split; [reflexivity|assumption].
    + destruct Hyb as (r&Hr&E). unfold nm_s in E. rewrite E in Hk. apply in_map_iff in Hk. destruct Hk as (q&<-&Hq). cbn [fst].
      destruct (reg_Dyb nx ny nz g p rest useVar DH x y z fuel Hg Hp Hx Hy Hz Hf Hny) as (r'&Hr'&FR). rewrite Hr in Hr'. injection Hr' as <-.
      destruct (backward_cols _ _ _ _ _ _ _ Hny Hy Hp FR Hq) as (X&HX&EX&HA). exists X. auto.
  - intros Efs M [<-|[]] x y z Hx Hy Hz kc Hk. apply Z.eqb_eq in Efs. specialize (Hff Efs x y z Hx Hy Hz). cbv zeta in Hff.
    destruct Hff as (r&Hr&E). unfold nm_s in E. rewrite E in Hk. apply in_app_iff in Hk.
    assert (PW : p - 1 <= W) by (unfold width; destruct useStencil; lia).
    destruct Hk as [Hk|Hk].
    + destruct hybrid; [|destruct Hk]. apply in_map_iff in Hk. destruct Hk as (q&<-&Hq).
      destruct (stencil_row_cols _ _ _ _ Hp Hq). eexists; split; [eassumption|]. split; [reflexivity|lia].
    + apply in_map_iff in Hk. destruct Hk as (q&<-&Hq). cbn [fst].
      destruct (reg_DyfFS nx ny nz g p rest useVar DH x y z Hg Hp Hx Hy Hz hybrid) as (r'&Hr'&FR). rewrite Hr in Hr'. injection Hr' as <-. subst r.
      destruct (fs_cols _ _ _ _ _ _ _ _ _ Hp (or_introl (conj eq_refl eq_refl)) Hq) as (Y&HY&EY&HA). exists Y. split; [auto|]. split; [auto|lia].
  - intros Efs M HMn x y z Hx Hy Hz kc Hk. apply Z.eqb_eq in Efs. specialize (Hfb Efs x y z Hx Hy Hz). cbv zeta in Hfb. specialize (Hfb M HMn).
    destruct Hfb as (r&Hr&E). unfold nm_s in E. rewrite E in Hk. apply in_app_iff in Hk.
    assert (PW : p - 1 <= W) by (unfold width; destruct useStencil; lia).
    destruct Hk as [Hk|Hk].
    + destruct hybrid; [|destruct Hk]. apply in_map_iff in Hk. destruct Hk as (q&<-&Hq).
      destruct (stencil_row_b_cols _ _ _ _ Hp Hq). eexists; split; [eassumption|]. split; [reflexivity|lia].
    + apply in_map_iff in Hk. destruct Hk as (q&<-&Hq). cbn [fst].
      destruct (reg_DybFS nx ny nz g p rest useVar DH x y z Hg Hp Hx Hy Hz hybrid) as (r'&Hr'&FR). rewrite Hr in Hr'. injection Hr' as <-. subst r.
      destruct (fs_cols _ _ _ _ _ _ _ _ _ Hp (or_intror (conj eq_refl eq_refl)) Hq) as (Y&HY&EY&HA). exists Y. split; [auto|]. split; [auto|lia].
  - intros Ed x y z Hx Hy Hz kc Hk. specialize (Hnz Ed). specialize (Hzf Hnz x y z Hx Hy Hz). cbv zeta in Hzf. unfold code_row, width in *. destruct useStencil.
    + unfold nm_s in Hzf. rewrite Hzf in Hk. apply in_map_iff in Hk. destruct Hk as (q&<-&Hq).
      destruct (stencil_row_cols _ _ _ _ Hp Hq). eexists; split; [eassumption|]. split; [reflexivity|assumption].
    + destruct Hzf as (r&Hr&E). unfold nm_s in E. rewrite E in Hk. apply in_map_iff in Hk. destruct Hk as (q&<-&Hq). cbn [fst].
      destruct (reg_Dzf nx ny nz g p rest useVar DH x y z fuel Hg Hp Hx Hy Hz Hf Hnz) as (r'&Hr'&FR). rewrite Hr in Hr'. injection Hr' as <-.
      destruct (forward_cols _ _ _ _ _ _ _ Hnz Hz Hp FR Hq) as (X&HX&EX&HA). exists X. auto.
  - intros Ed x y z Hx Hy Hz kc Hk. specialize (Hnz Ed). specialize (Hzb Hnz x y z Hx Hy Hz). cbv zeta in Hzb. unfold code_row, width in *. destruct useStencil.
    + unfold nm_s in Hzb. rewrite Hzb in Hk. apply in_map_iff in Hk. destruct Hk as (q&<-&Hq).
      destruct (stencil_row_b_cols _ _ _ _ Hp Hq). eexists; split; [eassumption|]. split; [reflexivity|assumption].
    + destruct Hzb as (r&Hr&E). unfold nm_s in E. rewrite E in Hk. apply in_map_iff in Hk. destruct Hk as (q&<-&Hq). cbn [fst].
      destruct (reg_Dzb nx ny nz g p rest useVar DH x y z fuel Hg Hp Hx Hy Hz Hf Hnz) as (r'&Hr'&FR). rewrite Hr in Hr'. injection Hr' as <-.
      destruct (backward_cols _ _ _ _ _ _ _ Hnz Hz Hp FR Hq) as (X&HX&EX&HA). exists X. auto.
Qed.
End rows.

Lemma scatter_filter A (l : list (Z * (nat -> num A))) t f i :
  scatter l t f i = fold_left (a_add A) (map (fun js => snd js t) (filter (fun js => fst js =? i) l)) (f i).
Proof.
  unfold scatter. generalize (f i). induction l as [|a l IH]; intros x; cbn; [reflexivity|].
  rewrite IH. destruct (fst a =? i); reflexivity.
Qed.

Lemma lk_nD d l s v : lk s (nD d l) = Some v <-> In s l /\ v = deeper d (natural s).
Proof.
  unfold nD. induction l as [|a l IH]; cbn [map lk In]; [intuition discriminate|].
  destruct (String.eqb a s) eqn:E.
  - apply String.eqb_eq in E. subst a. split; [intros H; injection H as <-; auto|intros [_ ->]; reflexivity].
  - rewrite IH. assert (a <> s) by (intros ->; rewrite String.eqb_refl in E; discriminate). intuition.
Qed.

Lemma is3D_spec s : In s all_solvers -> is3D s = true -> In s solvers3D.
Proof.
  intros Hs. unfold all_solvers in Hs. cbn [In] in Hs. unfold solvers3D.
  repeat destruct Hs as [<-|Hs]; [..|destruct Hs]; intros E; try (exfalso; vm_compute in E; discriminate E); clear E; cbn [In];
  repeat (first [left; reflexivity|right]).
Qed.

Section cone.
Variables (A : arith) (e : env A) (c : cfg) (useStencil useVar hybrid : bool) (nx ny nz p : Z) (rest : list Z) (DH : Q) (fuel : nat)
  (cvs cv : Q -> num A) (g : grid) (s : solver).
Hypothesis Hs : In s all_solvers.
Hypothesis HM : fd_matrices e c useStencil useVar hybrid nx ny nz p rest DH fuel cvs cv g.
Hypotheses (Hp : supported p) (Hnx : 2 <= nx) (Hny : 2 <= ny) (Hnz : In s solvers3D -> 2 <= nz) (Hf : 15 <= Z.of_nat fuel).
Hypothesis (Hit : c_itF c = false /\ c_itX c = false /\ c_itZ c = false /\ c_itXZ c = false).
Notation W := (width useStencil p).
Variables (x0 y0 z0 : Z).
Hypotheses (Hx0 : 0 <= x0 < nx) (Hy0 : 0 <= y0 < ny) (Hz0 : 0 <= z0 < nz).
Notation P0 := (reg_index nx nz x0 y0 z0).

Definition apart (n : Z) (x y z : Z) : Prop := Z.abs (x - x0) > n * W \/ Z.abs (y - y0) > n * W \/ Z.abs (z - z0) > n * W.

Lemma W_pos : 0 <= W.
Proof using Hp. clear -Hp. unfold width. destruct (supported_even p Hp) as (k&->&Hk). destruct useStencil; lia. Qed.

Lemma preg_not_P0 base v i : 0 <= base -> preg nx ny nz x0 y0 z0 W base v i -> i <> P0.
Proof.
  intros Hb (x&y&z&Hx&Hy&Hz&->&H) E. cbv zeta in H. pose proof W_pos as HW.
  assert (Er : 0 <= base + W * Z.of_nat (dep v)) by (apply Z.add_nonneg_nonneg; [auto|apply Z.mul_nonneg_nonneg; lia]).
  pose proof (regular_i2c _ _ _ _ x y z (fm_grid _ _ _ _ _ _ _ _ _ _ _ _ _ _ _ _ HM) Hx Hy Hz) as E1.
  pose proof (regular_i2c _ _ _ _ x0 y0 z0 (fm_grid _ _ _ _ _ _ _ _ _ _ _ _ _ _ _ _ HM) Hx0 Hy0 Hz0) as E2.
  rewrite E, E2 in E1. injection E1 as -> -> ->. unfold out, b2 in H. destruct (ox v), (oy v), (oz v); lia.
Qed.

Lemma cone_steps n : forall t0 base st st' src src', 0 <= base ->
  same_sources_off P0 src src' ->
  agree (preg nx ny nz x0 y0 z0 W base) (c_L c) (nD 0 (livestr s (c_pml c))) st st' ->
  agree (preg nx ny nz x0 y0 z0 W (base + 2 * Z.of_nat n * W)) (c_L c) (nD 0 (livestr s (c_pml c)))
    (state_at s c (Shot A e src (fun _ => []) 0) t0 n st) (state_at s c (Shot A e src' (fun _ => []) 0) t0 n st').
Proof.
  induction n as [|n IH]; intros t0 base st st' src src' Hb Hsrc HA.
  - cbn [state_at]. replace (base + 2 * Z.of_nat 0 * W) with base by lia. exact HA.
  - cbn [state_at sh_env sh_src].
    replace (base + 2 * Z.of_nat (S n) * W) with ((base + 2 * W) + 2 * Z.of_nat n * W) by lia.
    apply IH; [pose proof W_pos; lia|exact Hsrc|].
    assert (Hsc : forall ty v i f f', preg nx ny nz x0 y0 z0 W base v i -> f i = f' i -> scatter (src ty) t0 f i = scatter (src' ty) t0 f' i).
    { intros ty v i f f' Hr E. rewrite !scatter_filter, E, (Hsrc ty t0 i); [reflexivity|]. eapply preg_not_P0; eauto. }
    pose proof (rows_reach A e c useStencil useVar hybrid nx ny nz p rest DH fuel cvs cv g (is3D s) HM Hp Hnx Hny
      (fun E => Hnz (is3D_spec s Hs E)) Hf) as HR.
    destruct c as [pml dmp fs itF itX itZ itXZ L]. cbn [c_itF c_itX c_itZ c_itXZ c_pml c_L c_fs] in *. destruct Hit as (->&->&->&->).
    pose proof (step_cone A e src src' t0 nx ny nz x0 y0 z0 W base W_pos Hsc s (is3D s) pml dmp fs L Hs eq_refl HR st st' HA) as HS.
    intros x v Hl l Hn i (a&b&d&H1&H2&H3&H4&H5). apply lk_nD in Hl. destruct Hl as [Hl ->].
    apply (HS x (deeper 2 (natural x))); [apply lk_nD; auto|auto|].
    exists a, b, d. repeat (split; [assumption|]). cbv zeta in *. cbn [ox oy oz dep deeper] in *.
    replace (base + W * Z.of_nat 2) with (base + 2 * W + W * Z.of_nat 0) by lia. exact H5.
Qed.

Lemma cone_lem n t0 st st' src src' : same_sources_off P0 src src' ->
  (forall f i, In f (live s c) -> i <> P0 -> st f i = st' f i) ->
  forall f x y z, In f (live s c) -> 0 <= x < nx -> 0 <= y < ny -> 0 <= z < nz -> apart (Z.of_nat n) x y z ->
  state_at s c (Shot A e src (fun _ => []) 0) t0 n st f (reg_index nx nz x y z) =
  state_at s c (Shot A e src' (fun _ => []) 0) t0 n st' f (reg_index nx nz x y z).
Proof.
  intros Hsrc H [f l] x y z Hf' Hx Hy Hz Hap. apply live_in in Hf'; auto. destruct Hf' as [F1 F2].
  assert (H0 : agree (preg nx ny nz x0 y0 z0 W 0) (c_L c) (nD 0 (livestr s (c_pml c))) st st').
  { intros a v Hl k Hk i Hr. apply lk_nD in Hl. destruct Hl as [Hl ->]. apply H; [apply live_in; auto|]. eapply (preg_not_P0 0); eauto. lia. }
  pose proof (cone_steps n t0 0 st st' src src' ltac:(lia) Hsrc H0) as G.
  apply (G f (deeper 0 (natural f))); [apply lk_nD; auto|exact F2|].
  exists x, y, z. repeat (split; [assumption|]). split; [reflexivity|]. cbv zeta. cbn [ox oy oz dep deeper].
  unfold apart in Hap. unfold out, b2. pose proof W_pos.
  assert (E : 0 + 2 * Z.of_nat n * W + W * Z.of_nat 0 = 2 * (Z.of_nat n * W)) by lia. rewrite E.
  clear E H0 G. generalize dependent (Z.of_nat n * W). intros q HA. clear -HA. destruct (ox (natural f)), (oy (natural f)), (oz (natural f)); lia.
Qed.
End cone.
