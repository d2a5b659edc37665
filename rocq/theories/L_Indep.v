(** Instance 1 of the analysis: the live vectors of a time step are the reset ones. *)
From Coq Require Import QArith.
From Verif Require Import M_Prog M_Solvers L_Prog L_Shape.
Open Scope Z_scope.

Definition u_reg (v : unit) (i : Z) : Prop := True.
Definition u_meet (v w : unit) : option unit := Some tt.
Definition u_mvt (s : string) (v : unit) : option unit := Some tt.
Definition u_geb (v w : unit) : bool := true.

Definition uD (l : list string) : list (string * unit) := map (fun s => (s, tt)) l.

Section I1.
Variables (A : arith) (e : env A) (src src' : acq A) (t : nat).
Hypothesis Hsrc : forall ty v i f f', u_reg v i -> f i = f' i -> scatter (src ty) t f i = scatter (src' ty) t f' i.

Lemma u_Hmeet : forall v w m i, u_meet v w = Some m -> u_reg m i -> u_reg v i /\ u_reg w i.
Proof. intros; split; exact I. Qed.
Lemma u_Hmv : forall s v v' i, u_mvt s v = Some v' -> u_reg v' i -> forall kc, In kc (e_mat e (N s 0) i) -> u_reg v (fst kc).
Proof. intros; exact I. Qed.
Lemma u_Hge : forall v w i, u_geb v w = true -> u_reg w i -> u_reg v i.
Proof. intros; exact I. Qed.

Ltac solve_live :=
  lazymatch goal with |- hoare _ _ _ _ _ _ (uD (livestr ?s ?b)) (step_prog ?s ?c) _ =>
    let D := eval vm_compute in (uD (livestr s b)) in change (uD (livestr s b)) with D;
    let q := eval vm_compute in (src_prog s) in
    let r := eval cbv delta [s] in s in
    change (step_prog s c) with (s_run r c ++ q)
  end; cbn [s_run];
  lazymatch goal with |- hoare _ _ _ _ _ _ _ (?r ?c ++ _) _ => unfold r end; 
  cbn [when c_pml c_damp c_fs c_itF c_itX c_itZ c_itXZ c_L];
  unfold exchange_2Dviscoelastic, exchange_3Dviscoelastic;
  eapply h_end with (geb := u_geb); [eassumption|h_go u_meet u_mvt|h_triv].

Lemma step_live c s : In s all_solvers ->
  hoare u_reg e src src' t (c_L c) (uD (livestr s (c_pml c))) (step_prog s c) (uD (livestr s (c_pml c))).
Proof.
  intros Hs. pose proof u_Hmeet as Hmeet. pose proof u_Hmv as Hmv. pose proof u_Hge as Hge.
  destruct c as [pml dmp fs itF itX itZ itXZ L]; cbn [c_pml c_L].
  unfold all_solvers in Hs. cbn [In] in Hs.
  do 14 (destruct Hs as [<-|Hs]; [destruct pml; solve_live|]). destruct Hs.
Qed.
End I1.
