(** The loops over the relaxation mechanisms of the viscoelastic solvers. *)
From Coq Require Import QArith Qreals Reals Lra Lia FunctionalExtensionality.
From Verif Require Import M_Prog M_Solvers S_Solver S_Step L_Prog L_Step L_Loop.
Open Scope R_scope.
Open Scope list_scope.

Definition loopA (cs : list axis) (l : nat) : list instr :=
  [IScal "update2" (SN (N "inverseRelaxationTime" l)) "update"; IMulV "update2" "tauP"] ++
  flat_map (fun a => [IAddS (sig a a) (SN "DThalf") (rel a a l); IMulS (rel a a l) (SN (N "viscoCoeff1" l)); ISub (rel a a l) "update2"]) cs.
Definition loopB (a : axis) (l : nat) : list instr :=
  [IScal "update2" (SN (N "inverseRelaxationTime" l)) "update"; IMulV "update2" "tauS"; IAdd (rel a a l) "update2";
   IMulS (rel a a l) (SN (N "viscoCoeff2" l)); IAddS (sig a a) (SN "DThalf") (rel a a l)].
Definition loopC (a b : axis) (l : nat) : list instr :=
  [IAddS (sig a b) (SN "DThalf") (rel a b l); IMulS (rel a b l) (SN (N "viscoCoeff1" l));
   IScal "update2" (SN (N "inverseRelaxationTime" l)) "update"; IMulV "update2" (nm_s ("tauSAverage" ++ up2 a b)); ISub (rel a b l) "update2";
   IMulS (rel a b l) (SN (N "viscoCoeff2" l)); IAddS (sig a b) (SN "DThalf") (rel a b l)].
Definition loopD (cs : list axis) (l : nat) : list instr :=
  flat_map (fun a => [ICoef "fs_temp" "selectFreeSurface" (rel a a l); ISubS (sig a a) (SN "DThalf") "fs_temp"]) cs.
Definition loopE (sumH : string) (cs : list axis) (l : nat) : list instr :=
  [ICoef "fs_temp" (N "scaleRelaxationHorizontalUpdate" l) sumH] ++ map (fun a => IAdd (rel a a l) "fs_temp") cs ++
  [ICoef "fs_temp" (N "scaleRelaxationVerticalUpdate" l) "vyy"] ++ map (fun a => ISub (rel a a l) "fs_temp") cs ++
  flat_map (fun a => [ICoef "fs_temp" "selectFreeSurface" (rel a a l); IAddS (sig a a) (SN "DThalf") "fs_temp"]) cs.
Definition loopF (l : nat) : list instr := setSurfaceZero (N "Ryy" l).

Ltac split_k k L := assert (EK : (k <? S L)%nat = if Nat.eq_dec k L then true else (k <? L)%nat)
  by (destruct (Nat.eq_dec k L), (Nat.ltb_spec k (S L)), (Nat.ltb_spec k L); try reflexivity; lia); rewrite EK; clear EK.
Ltac names_r := unfold loopA, loopB, loopC, loopD, loopE, loopF, rel, sig, up2, low2, low, up, setSurfaceZero; cbn [flat_map map app append].
Ltac one_r k L := destruct (Nat.eq_dec k L) as [->|Hk]; body; [rewrite ?Nat.eqb_refl; rring|rewrite ?(proj2 (Nat.eqb_neq L k)) by congruence; reflexivity].

Section loops.
Variables (e : env R_arith) (src : acq R_arith) (t : nat).
Notation ex p st := (exec e src t (map unstag p) st).
Notation inv k := (e_sca e (N "inverseRelaxationTime" k)).
Notation c1 k := (e_sca e (N "viscoCoeff1" k)).
Notation c2 k := (e_sca e (N "viscoCoeff2" k)).
Notation half := (e_sca e (N "DThalf" 0)).
Notation upd_ s i := (s (N "update" 0) i).

Lemma loopA_R cs s L a k i : In cs [[AX; AY]; [AX; AY; AZ]] -> In a cs ->
  ex (loop L (loopA cs)) s (rel a a k) i =
  if (k <? L)%nat then c1 k * s (rel a a k) i - inv k * upd_ s i * e_coef e (N "tauP" 0) i else s (rel a a k) i.
Proof.
  intros Hc Ha. induction L as [|L IH]; [reflexivity|]. rewrite ex_S. split_k k L.
  assert (Ku : ex (loop L (loopA cs)) s (N "update" 0) = s (N "update" 0)).
  { apply ex_keeps, keeps_loop. intros l. destruct Hc as [<-|[<-|[]]]; reflexivity. }
  assert (IL := fun E : k = L => IH). set (s' := ex (loop L (loopA cs)) s) in *. clearbody s'.
  assert (S' : ex (loopA cs L) s' (rel a a k) i =
    if Nat.eq_dec k L then c1 k * s' (rel a a k) i - inv k * upd_ s' i * e_coef e (N "tauP" 0) i else s' (rel a a k) i).
  { destruct Hc as [<-|[<-|[]]]; destruct a; cbn [In] in Ha; try (exfalso; intuition discriminate); names_r; one_r k L. }
  rewrite S', Ku, IH. destruct (Nat.eq_dec k L) as [->|Hk]; [|reflexivity]. rewrite Nat.ltb_irrefl. reflexivity.
Qed.
Lemma loopA_S cs s L a i : In cs [[AX; AY]; [AX; AY; AZ]] -> In a cs ->
  ex (loop L (loopA cs)) s (sig a a) i = s (sig a a) i + half * Rsum (@map nat R (fun l => s (rel a a l) i) (seq 0 L)).
Proof.
  intros Hc Ha. induction L as [|L IH]; [cbn; rring|]. rewrite ex_S, Rsum_S.
  pose proof (loopA_R cs s L a L i Hc Ha) as HR. rewrite Nat.ltb_irrefl in HR. set (s' := ex (loop L (loopA cs)) s) in *. clearbody s'.
  assert (S' : ex (loopA cs L) s' (sig a a) i = s' (sig a a) i + half * s' (rel a a L) i).
  { clear IH HR. destruct Hc as [<-|[<-|[]]]; destruct a; cbn [In] in Ha; try (exfalso; intuition discriminate); names_r; body; rring. }
  rewrite S', IH, HR. rring.
Qed.

Lemma loopB_R s L a k i :
  ex (loop L (loopB a)) s (rel a a k) i =
  if (k <? L)%nat then c2 k * (s (rel a a k) i + inv k * upd_ s i * e_coef e (N "tauS" 0) i) else s (rel a a k) i.
Proof.
  induction L as [|L IH]; [reflexivity|]. rewrite ex_S. split_k k L.
  assert (Ku : ex (loop L (loopB a)) s (N "update" 0) = s (N "update" 0)).
  { apply ex_keeps, keeps_loop. intros l. destruct a; reflexivity. }
  set (s' := ex (loop L (loopB a)) s) in *. clearbody s'.
  assert (S' : ex (loopB a L) s' (rel a a k) i =
    if Nat.eq_dec k L then c2 k * (s' (rel a a k) i + inv k * upd_ s' i * e_coef e (N "tauS" 0) i) else s' (rel a a k) i).
  { destruct a; names_r; one_r k L. }
  rewrite S', Ku, IH. destruct (Nat.eq_dec k L) as [->|Hk]; [|reflexivity]. rewrite Nat.ltb_irrefl. reflexivity.
Qed.
Lemma loopB_S s L a i :
  ex (loop L (loopB a)) s (sig a a) i = s (sig a a) i + half * Rsum (@map nat R (fun l => ex (loop L (loopB a)) s (rel a a l) i) (seq 0 L)).
Proof.
  induction L as [|L IH]; [cbn; rring|]. rewrite Rsum_S.
  assert (HE : Rsum (@map nat R (fun l => ex (loop (S L) (loopB a)) s (rel a a l) i) (seq 0 L)) = Rsum (@map nat R (fun l => ex (loop L (loopB a)) s (rel a a l) i) (seq 0 L))).
  { apply Rsum_ext. intros l Hl. apply in_seq in Hl. rewrite !loopB_R. rewrite (proj2 (Nat.ltb_lt l (S L))), (proj2 (Nat.ltb_lt l L)) by lia. reflexivity. }
  rewrite HE. clear HE. revert IH. rewrite ex_S. generalize (Rsum (@map nat R (fun l => ex (loop L (loopB a)) s (rel a a l) i) (seq 0 L))). intros sum IH.
  set (s' := ex (loop L (loopB a)) s) in *. clearbody s'.
  assert (S' : ex (loopB a L) s' (sig a a) i = s' (sig a a) i + half * ex (loopB a L) s' (rel a a L) i).
  { clear IH. destruct a; names_r; body; rewrite ?Nat.eqb_refl; rring. }
  rewrite S', IH. rring.
Qed.

Lemma loopC_R s L a b k i : In (a, b) [(AX, AY); (AX, AZ); (AY, AZ)] ->
  ex (loop L (loopC a b)) s (rel a b k) i =
  if (k <? L)%nat then c2 k * (c1 k * s (rel a b k) i - inv k * upd_ s i * e_coef e (nm_s ("tauSAverage" ++ up2 a b)) i) else s (rel a b k) i.
Proof.
  intros Hab. induction L as [|L IH]; [reflexivity|]. rewrite ex_S. split_k k L.
  assert (Ku : ex (loop L (loopC a b)) s (N "update" 0) = s (N "update" 0)).
  { apply ex_keeps, keeps_loop. intros l. destruct Hab as [E|[E|[E|[]]]]; injection E as <- <-; reflexivity. }
  set (s' := ex (loop L (loopC a b)) s) in *. clearbody s'.
  assert (S' : ex (loopC a b L) s' (rel a b k) i =
    if Nat.eq_dec k L then c2 k * (c1 k * s' (rel a b k) i - inv k * upd_ s' i * e_coef e (nm_s ("tauSAverage" ++ up2 a b)) i) else s' (rel a b k) i).
  { destruct Hab as [E|[E|[E|[]]]]; injection E as <- <-; names_r; one_r k L. }
  rewrite S', Ku, IH. destruct (Nat.eq_dec k L) as [->|Hk]; [|reflexivity]. rewrite Nat.ltb_irrefl. reflexivity.
Qed.
Lemma loopC_S s L a b i : In (a, b) [(AX, AY); (AX, AZ); (AY, AZ)] ->
  ex (loop L (loopC a b)) s (sig a b) i = s (sig a b) i + half * Rsum (@map nat R (fun l => s (rel a b l) i + ex (loop L (loopC a b)) s (rel a b l) i) (seq 0 L)).
Proof.
  intros Hab. induction L as [|L IH]; [cbn; rring|]. rewrite Rsum_S.
  assert (HE : Rsum (@map nat R (fun l => s (rel a b l) i + ex (loop (S L) (loopC a b)) s (rel a b l) i) (seq 0 L)) = Rsum (@map nat R (fun l => s (rel a b l) i + ex (loop L (loopC a b)) s (rel a b l) i) (seq 0 L))).
  { apply Rsum_ext. intros l Hl. apply in_seq in Hl. rewrite !loopC_R by exact Hab. rewrite (proj2 (Nat.ltb_lt l (S L))), (proj2 (Nat.ltb_lt l L)) by lia. reflexivity. }
  rewrite HE. clear HE. revert IH. rewrite ex_S. generalize (Rsum (@map nat R (fun l => s (rel a b l) i + ex (loop L (loopC a b)) s (rel a b l) i) (seq 0 L))). intros sum IH.
  pose proof (loopC_R s L a b L i Hab) as HR. rewrite Nat.ltb_irrefl in HR.
  set (s' := ex (loop L (loopC a b)) s) in *. clearbody s'.
  assert (S' : ex (loopC a b L) s' (sig a b) i = s' (sig a b) i + half * (s' (rel a b L) i + ex (loopC a b L) s' (rel a b L) i)).
  { clear IH HR. destruct Hab as [E|[E|[E|[]]]]; injection E as <- <-; names_r; body; rewrite ?Nat.eqb_refl; rring. }
  rewrite S', IH, HR. rring.
Qed.

Lemma loopD_S cs s L a i : In cs [[AX]; [AX; AZ]] -> In a cs ->
  ex (loop L (loopD cs)) s (sig a a) i = s (sig a a) i - half * Rsum (@map nat R (fun l => e_coef e (N "selectFreeSurface" 0) i * s (rel a a l) i) (seq 0 L)).
Proof.
  intros Hc Ha. induction L as [|L IH]; [cbn; rring|]. rewrite ex_S, Rsum_S.
  assert (HR : ex (loop L (loopD cs)) s (rel a a L) = s (rel a a L)).
  { destruct Hc as [<-|[<-|[]]]; destruct a; cbn [In] in Ha; try (exfalso; intuition discriminate); names_r; apply ex_keeps, keeps_loop; reflexivity. }
  set (s' := ex (loop L (loopD cs)) s) in *. clearbody s'.
  assert (S' : ex (loopD cs L) s' (sig a a) i = s' (sig a a) i - half * (e_coef e (N "selectFreeSurface" 0) i * s' (rel a a L) i)).
  { clear IH HR. destruct Hc as [<-|[<-|[]]]; destruct a; cbn [In] in Ha; try (exfalso; intuition discriminate); names_r; body; rring. }
  rewrite S', IH, HR. rring.
Qed.

Lemma loopE_R h cs s L a k i : In (h, cs) [("vxx"%string, [AX]); ("update"%string, [AX; AZ])] -> In a cs ->
  ex (loop L (loopE h cs)) s (rel a a k) i =
  if (k <? L)%nat then s (rel a a k) i + e_coef e (N "scaleRelaxationHorizontalUpdate" k) i * s (N h 0) i - e_coef e (N "scaleRelaxationVerticalUpdate" k) i * s (N "vyy" 0) i
  else s (rel a a k) i.
Proof.
  intros Hc Ha. induction L as [|L IH]; [reflexivity|]. rewrite ex_S. split_k k L.
  assert (Kv : ex (loop L (loopE h cs)) s (N "vyy" 0) = s (N "vyy" 0) /\ ex (loop L (loopE h cs)) s (N h 0) = s (N h 0)).
  { split; apply ex_keeps, keeps_loop; intros l; destruct Hc as [E|[E|[]]]; injection E as <- <-; reflexivity. }
  destruct Kv as [Kv Kh]. set (s' := ex (loop L (loopE h cs)) s) in *. clearbody s'.
  assert (S' : ex (loopE h cs L) s' (rel a a k) i =
    if Nat.eq_dec k L then s' (rel a a k) i + e_coef e (N "scaleRelaxationHorizontalUpdate" k) i * s' (N h 0) i - e_coef e (N "scaleRelaxationVerticalUpdate" k) i * s' (N "vyy" 0) i
    else s' (rel a a k) i).
  { clear IH Kv Kh. destruct Hc as [E|[E|[]]]; injection E as <- <-; destruct a; cbn [In] in Ha; try (exfalso; intuition discriminate); names_r; one_r k L. }
  rewrite S', Kv, Kh, IH. destruct (Nat.eq_dec k L) as [->|Hk]; [|reflexivity]. rewrite Nat.ltb_irrefl. reflexivity.
Qed.
Lemma loopE_S h cs s L a i : In (h, cs) [("vxx"%string, [AX]); ("update"%string, [AX; AZ])] -> In a cs ->
  ex (loop L (loopE h cs)) s (sig a a) i = s (sig a a) i + half * Rsum (@map nat R (fun l => e_coef e (N "selectFreeSurface" 0) i * ex (loop L (loopE h cs)) s (rel a a l) i) (seq 0 L)).
Proof.
  intros Hc Ha. induction L as [|L IH]; [cbn; rring|]. rewrite Rsum_S.
  assert (HE : Rsum (@map nat R (fun l => e_coef e (N "selectFreeSurface" 0) i * ex (loop (S L) (loopE h cs)) s (rel a a l) i) (seq 0 L)) = Rsum (@map nat R (fun l => e_coef e (N "selectFreeSurface" 0) i * ex (loop L (loopE h cs)) s (rel a a l) i) (seq 0 L))).
  { apply Rsum_ext. intros l Hl. apply in_seq in Hl. rewrite !loopE_R by assumption. rewrite (proj2 (Nat.ltb_lt l (S L))), (proj2 (Nat.ltb_lt l L)) by lia. reflexivity. }
  rewrite HE. clear HE. revert IH. rewrite ex_S. generalize (Rsum (@map nat R (fun l => e_coef e (N "selectFreeSurface" 0) i * ex (loop L (loopE h cs)) s (rel a a l) i) (seq 0 L))). intros sum IH.
  set (s' := ex (loop L (loopE h cs)) s) in *. clearbody s'.
  assert (S' : ex (loopE h cs L) s' (sig a a) i = s' (sig a a) i + half * (e_coef e (N "selectFreeSurface" 0) i * ex (loopE h cs L) s' (rel a a L) i)).
  { clear IH. destruct Hc as [E|[E|[]]]; injection E as <- <-; destruct a; cbn [In] in Ha; try (exfalso; intuition discriminate); names_r; body; rewrite ?Nat.eqb_refl; rring. }
  rewrite S', IH. rring.
Qed.
Lemma loopF_R s L k i : ex (loop L loopF) s (N "Ryy" k) i = if (k <? L)%nat then s (N "Ryy" k) i * e_coef e (N "setZeroFreeSurface" 0) i else s (N "Ryy" k) i.
Proof.
  induction L as [|L IH]; [reflexivity|]. rewrite ex_S. split_k k L.
  set (s' := ex (loop L loopF) s) in *. clearbody s'.
  assert (S' : ex (loopF L) s' (N "Ryy" k) i = if Nat.eq_dec k L then s' (N "Ryy" k) i * e_coef e (N "setZeroFreeSurface" 0) i else s' (N "Ryy" k) i).
  { clear IH. names_r; one_r k L. }
  rewrite S', IH. destruct (Nat.eq_dec k L) as [->|Hk]; [|reflexivity]. rewrite Nat.ltb_irrefl. reflexivity.
Qed.
End loops.
