(** The vectors of the solvers: names of wavefields and PML memory. *)
From Coq Require Import QArith.
From Verif Require Import M_Prog M_Solvers L_Prog.
Open Scope Z_scope.

(** strings of the live vectors *)
Definition fieldstr (s : solver) : list string :=
  nodup String.string_dec (map nstr (s_fields s (Cfg false false 0 false false false false 1))).
Definition livestr (s : solver) (pml : bool) : list string :=
  fieldstr s ++ (if pml then map nstr (s_psi s) else []).

(** the vectors whose values at the start of a step matter *)
Definition live (s : solver) (c : cfg) : list nm := s_fields s c ++ (if c_pml c then s_psi s else []).

Lemma relax_nil L : relax [] L = [].
Proof. unfold relax. induction (seq 0 L); cbn; auto. Qed.

Lemma in_relax B L s l : In (N s l) (relax B L) <-> In s B /\ (l < L)%nat.
Proof.
  unfold relax. rewrite in_flat_map. split.
  - intros (k&Hk&H). apply in_seq in Hk. apply in_map_iff in H. destruct H as (x&E&H). injection E as -> ->. split; [auto|lia].
  - intros [H1 H2]. exists l. split; [apply in_seq; lia|]. apply in_map_iff. exists s. auto.
Qed.
Lemma in_nms l s k : In (N s k) (nms l) <-> In s l /\ k = O.
Proof.
  unfold nms. rewrite in_map_iff. split.
  - intros (x&E&H). unfold nm_s in E. injection E as -> <-. auto.
  - intros [H ->]. exists s. auto.
Qed.

Definition shape (s : solver) (Al Bl Pl : list string) : Prop :=
  (forall c, s_fields s c = nms Al ++ relax Bl (c_L c)) /\ s_psi s = nms Pl /\ fieldstr s = Al ++ Bl /\
  forallb (fun s => negb (isR s)) (Al ++ Pl) = true /\ forallb isR Bl = true.

Lemma solver_shape s : In s all_solvers -> exists Al Bl Pl, shape s Al Bl Pl.
Proof.
  unfold all_solvers. cbn [In]. intros H.
  Ltac shp A B := lazymatch goal with |- exists _ _ _, shape ?s _ _ _ =>
    let P := eval vm_compute in (map nstr (s_psi s)) in
    exists A, B, P; split; [intros c; cbn; rewrite ?relax_nil; reflexivity|]; repeat split; vm_compute; reflexivity end.
  repeat destruct H as [<-|H]; [..|destruct H].
  - shp ["vX"; "vY"; "p"]%string (@nil string).
  - shp ["vX"; "vY"; "Sxx"; "Syy"; "Sxy"]%string (@nil string).
  - shp ["vX"; "vY"; "Sxx"; "Syy"; "Sxy"]%string ["Rxx"; "Ryy"; "Rxy"]%string.
  - shp ["vZ"; "Sxz"; "Syz"]%string (@nil string).
  - shp ["vZ"; "Sxz"; "Syz"]%string ["Rxz"; "Ryz"]%string.
  - shp ["vX"; "vY"; "vZ"; "p"]%string (@nil string).
  - shp ["vX"; "vY"; "vZ"; "Sxx"; "Syy"; "Szz"; "Syz"; "Sxz"; "Sxy"]%string (@nil string).
  - shp ["vX"; "vY"; "vZ"; "Sxx"; "Syy"; "Szz"; "Syz"; "Sxz"; "Sxy"]%string ["Rxx"; "Ryy"; "Rzz"; "Ryz"; "Rxz"; "Rxy"]%string.
  - shp ["hZ"; "eX"; "eY"]%string (@nil string).
  - shp ["hX"; "hY"; "eZ"]%string (@nil string).
  - shp ["hZ"; "eX"; "eY"]%string ["rX"; "rY"]%string.
  - shp ["hX"; "hY"; "eZ"]%string ["rZ"]%string.
  - shp ["hX"; "hY"; "hZ"; "eX"; "eY"; "eZ"]%string (@nil string).
  - shp ["hX"; "hY"; "hZ"; "eX"; "eY"; "eZ"]%string ["rX"; "rY"; "rZ"]%string.
Qed.

Lemma live_in s c : In s all_solvers -> forall x l, In (N x l) (live s c) <-> In x (livestr s (c_pml c)) /\ nok (c_L c) (N x l).
Proof.
  intros Hs x l. destruct (solver_shape s Hs) as (Al&Bl&Pl&HF&HP&HS&H1&H2).
  unfold live, livestr, nok. rewrite HF, HP, HS. rewrite forallb_forall in H1, H2.
  rewrite !in_app_iff, in_nms, in_relax.
  assert (EP : In (N x l) (if c_pml c then nms Pl else []) <-> c_pml c = true /\ In x Pl /\ l = O).
  { destruct (c_pml c); [rewrite in_nms|cbn]; intuition discriminate. }
  assert (EP' : In x (if c_pml c then map nstr (nms Pl) else []) <-> c_pml c = true /\ In x Pl).
  { destruct (c_pml c); [unfold nms; rewrite map_map; cbn [nstr nm_s]; rewrite map_id|cbn]; intuition discriminate. }
  rewrite EP, EP'.
  assert (Hnot : In x (Al ++ Pl) -> isR x = false) by (intros H; apply H1 in H; destruct (isR x); [discriminate|reflexivity]).
  rewrite in_app_iff in Hnot. specialize (H2 x).
  destruct (isR x) eqn:E; intuition congruence.
Qed.

