(** Derivative rows on layered grids: the rows of the assembled matrices. *)
From Verif Require Import Base M_Grid S_Grid L_Grid L_Grid2 L_Grid3 L_GridP M_Deriv S_Deriv S_DerivVar L_Deriv L_Deriv2 L_DerivVar.
Open Scope Z_scope.

Lemma vget_nat {A} (l : list A) n x : nth_error l n = Some x -> vget l (Z.of_nat n) = Ok x.
Proof. intros H. unfold vget. replace (Z.of_nat n <? 0) with false by lia. now rewrite Nat2Z.id, H. Qed.
Lemma configured_ok orders useVar r p : configured orders useVar r p -> order_at orders useVar (Z.of_nat r) = Ok p.
Proof.
  unfold configured, order_at. destruct useVar; [apply vget_nat|]. destruct orders as [|q o]; [discriminate|]. cbn. congruence.
Qed.
Lemma multiple_eq d a b : 1 <= d -> (d | a) -> (d | b) -> a <= b < a + d -> a = b.
Proof. intros Hd (p&->) (q&->) H. assert (p = q) by nia. now subst. Qed.

Section Layered.
Variables (g : grid) (itf : list Z).
Hypothesis L : layered g itf.

Lemma layer_pos l : In l (layers g) -> 1 <= ldh l.
Proof. intros H. apply pow3_pos, (lay_pow g itf L), H. Qed.

Lemma point_div i c l : 0 <= i < nGridpoints g -> index2coordinate g i = Ok c -> In l (layers g) -> lstart l <= cy c <= lend l ->
  (ldh l | cx c) /\ (ldh l | cy c - lstart l) /\ (ldh l | cz c).
Proof.
  intros Hi Hc Hl Hy. destruct (lay_point g itf L i c Hi Hc) as (Hx&_&Hz&E).
  destruct (lay_lookup g itf L c l Hx Hz Hl Hy) as (i'&E'&_&c'&Ec'&(_&D1)&(_&D2)&(_&D3)).
  assert (i' = i) by congruence. subst i'. assert (c' = c) by congruence. subst c'. auto.
Qed.

Lemma grid_col X Y Z l : In l (layers g) -> lstart l <= Y <= lend l -> 0 <= X < gNX g -> 0 <= Z < gNZ g ->
  (ldh l | X) -> (ldh l | Y - lstart l) -> (ldh l | Z) ->
  exists k, coordinate2index g (mkC X Y Z) = Ok k /\ index2coordinate g k = Ok (mkC X Y Z).
Proof.
  intros Hl HY HX HZ DX DY DZ. pose proof (layer_pos l Hl) as Hp.
  destruct (lay_lookup g itf L (mkC X Y Z) l HX HZ Hl HY) as (k&E&_&c'&Ec&(A1&A2)&(B1&B2)&(C1&C2)). cbn [cx cy cz] in *.
  exists k. split; [exact E|]. rewrite Ec. f_equal. destruct c' as [X' Y' Z']. cbn [cx cy cz] in *. f_equal.
  - now apply (multiple_eq (ldh l)).
  - enough (Y' - lstart l = Y - lstart l) by lia. apply (multiple_eq (ldh l)); auto. lia.
  - now apply (multiple_eq (ldh l)).
Qed.

Variables (i : Z) (c : coord) (j : nat) (l : layer).
Hypothesis Hi : 0 <= i < nGridpoints g.
Hypothesis Hc : index2coordinate g i = Ok c.
Hypothesis Hj : nth_error (layers g) j = Some l.
Hypothesis Hy : lstart l <= cy c <= lend l.
Variables (orders : list Z) (useVar : bool) (DH : Q) (fuel : nat) (p : Z).
Hypothesis Hp : In p [2; 4; 6; 8; 10; 12].
Hypothesis Hf : 15 <= Z.of_nat fuel.

Section XZ.
Variables (r : nat) (lr : layer) (b : bool).
Hypothesis Hr : getLayer g (cy c) = Ok (Z.of_nat r).
Hypothesis Hlr : nth_error (layers g) r = Some lr.
Hypothesis Hb : locatedOnInterface g (cy c) = Ok b.
Hypothesis Hs : if b then ldh lr = 3 * ldh l \/ (ldh lr = 1 /\ ldh l = 1) else ldh lr = ldh l.
Hypothesis Ho : configured orders useVar r p.

Let s := ldh lr.
Let d := ldh l.
Let h := (DH * inject_Z s)%Q.

Lemma Hinl : In l (layers g). Proof. eapply nth_error_In; eauto. Qed.
Lemma Hinlr : In lr (layers g). Proof. eapply nth_error_In; eauto. Qed.
Lemma Hs1 : 1 <= s. Proof. apply layer_pos, Hinlr. Qed.
Lemma Hds : (d | s).
Proof. unfold d, s. destruct b; [destruct Hs as [->|(->&->)]; [exists 3; ring|exists 1; ring]|rewrite Hs; exists 1; ring]. Qed.
Lemma shift_f : 2 * (if b then - Z.quot s 3 else 0) + s = d.
Proof.
  unfold s, d in *. destruct b; [destruct Hs as [->|(->&->)]; [|reflexivity]|lia].
  replace (3 * ldh l) with (ldh l * 3) by ring. rewrite Z.quot_mul by lia. lia.
Qed.
Lemma shift_b : 2 * (if b then Z.quot s 3 else 0) - s = - d.
Proof. pose proof shift_f. destruct b; lia. Qed.
Lemma shift_div : (d | if b then Z.quot s 3 else 0).
Proof.
  unfold s, d in *. destruct b; [destruct Hs as [->|(->&->)]|apply Z.divide_0_r].
  - replace (3 * ldh l) with (ldh l * 3) by ring. rewrite Z.quot_mul by lia. exists 1; ring.
  - apply Z.divide_1_l.
Qed.

Lemma point_x : 0 <= cx c < gNX g /\ 0 <= cz c < gNZ g /\ (d | cx c) /\ (d | cz c) /\ (d | cy c - lstart l).
Proof.
  destruct (lay_point g itf L i c Hi Hc) as (A&_&B&_). destruct (point_div i c l Hi Hc Hinl Hy) as (C&D&E). auto 10.
Qed.

Lemma div_line x X sh : (d | x) -> (d | sh) -> (s | X - (x + sh)) -> (d | X).
Proof.
  intros A B C. replace X with (X - (x + sh) + (x + sh)) by ring.
  apply Z.divide_add_r; [exact (Z.divide_trans _ _ _ Hds C)|now apply Z.divide_add_r].
Qed.

Lemma start_x : forall A (f : coord -> Z -> layer -> Z -> bool -> res A),
  (c0 <- index2coordinate g i ;; layer <- getLayer g (cy c0) ;; l0 <- vget (layers g) layer ;;
   q <- order_at orders useVar layer ;; onif <- locatedOnInterface g (cy c0) ;; f c0 layer l0 q onif) = f c (Z.of_nat r) lr p b.
Proof.
  intros A f. rewrite Hc. cbn [bind]. rewrite Hr. cbn [bind]. rewrite (vget_nat _ _ _ Hlr). cbn [bind].
  rewrite (configured_ok _ _ _ _ Ho). cbn [bind]. rewrite Hb. reflexivity.
Qed.

Lemma neg_if : (if b then - Z.quot s 3 else 0) = - (if b then Z.quot s 3 else 0).
Proof. destruct b; reflexivity. Qed.

Lemma lay_Dxf : central_fits (2 * cx c + d) s p (gNX g) -> exists row, calcDxf fuel g orders useVar DH i = Ok row /\
  central_row (2 * cx c + d) s p h stencil_at (fun k X => index2coordinate g k = Ok (mkC X (cy c) (cz c))) row.
Proof.
  intros F. unfold calcDxf. rewrite start_x. destruct point_x as (PX&PZ&DX&DZ&DY).
  apply fwd_central; auto using Hs1; [pose proof shift_f; fold s; lia|].
  intros X HX DXX _. apply (grid_col X (cy c) (cz c) l Hinl Hy HX PZ); auto.
  refine (div_line (cx c) X _ DX _ DXX). fold s. rewrite neg_if. apply Z.divide_opp_r, shift_div.
Qed.
Lemma lay_Dxb : central_fits (2 * cx c - d) s p (gNX g) -> exists row, calcDxb fuel g orders useVar DH i = Ok row /\
  central_row (2 * cx c - d) s p h stencil_at (fun k X => index2coordinate g k = Ok (mkC X (cy c) (cz c))) row.
Proof.
  intros F. unfold calcDxb. rewrite start_x. destruct point_x as (PX&PZ&DX&DZ&DY).
  apply bwd_central; auto using Hs1; [pose proof shift_b; fold s; lia|].
  intros X HX DXX _. apply (grid_col X (cy c) (cz c) l Hinl Hy HX PZ); auto.
  refine (div_line (cx c) X _ DX _ DXX). exact shift_div.
Qed.
Lemma lay_Dzf : central_fits (2 * cz c + d) s p (gNZ g) -> exists row, calcDzf fuel g orders useVar DH i = Ok row /\
  central_row (2 * cz c + d) s p h stencil_at (fun k X => index2coordinate g k = Ok (mkC (cx c) (cy c) X)) row.
Proof.
  intros F. unfold calcDzf. rewrite start_x. destruct point_x as (PX&PZ&DX&DZ&DY).
  apply fwd_central; auto using Hs1; [pose proof shift_f; fold s; lia|].
  intros X HX DXX _. apply (grid_col (cx c) (cy c) X l Hinl Hy PX HX); auto.
  refine (div_line (cz c) X _ DZ _ DXX). fold s. rewrite neg_if. apply Z.divide_opp_r, shift_div.
Qed.
Lemma lay_Dzb : central_fits (2 * cz c - d) s p (gNZ g) -> exists row, calcDzb fuel g orders useVar DH i = Ok row /\
  central_row (2 * cz c - d) s p h stencil_at (fun k X => index2coordinate g k = Ok (mkC (cx c) (cy c) X)) row.
Proof.
  intros F. unfold calcDzb. rewrite start_x. destruct point_x as (PX&PZ&DX&DZ&DY).
  apply bwd_central; auto using Hs1; [pose proof shift_b; fold s; lia|].
  intros X HX DXX _. apply (grid_col (cx c) (cy c) X l Hinl Hy PX HX); auto.
  refine (div_line (cz c) X _ DZ _ DXX). exact shift_div.
Qed.
End XZ.
End Layered.
