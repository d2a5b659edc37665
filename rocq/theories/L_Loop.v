(** Frames and loops over the relaxation mechanisms. *)
From Coq Require Import QArith Qreals Reals Lra Lia FunctionalExtensionality.
From Verif Require Import M_Prog M_Solvers S_Solver S_Step L_Prog L_Step.
Open Scope R_scope.
Open Scope list_scope.

(** the base names of the vectors a program changes *)
Definition tgt (ins : instr) : list nm :=
  match ins with
  | IMv r _ _ | ICp r _ | IScal r _ _ | ICoef r _ _ | ISum r _ _ | IDif r _ _ | IMulV r _ | IMulS r _ | IAdd r _ | ISub r _
  | IAddS r _ _ | ISubS r _ _ | ISrc r _ => [r]
  | ISwap r s => [r; s] end.
Definition bases (p : list instr) : list string := map nstr (flat_map tgt p).
Definition keeps (s : string) (p : list instr) : bool := negb (existsb (String.eqb s) (bases p)).

Lemma keeps_app s p q : keeps s (p ++ q) = keeps s p && keeps s q.
Proof. unfold keeps, bases. rewrite flat_map_app, map_app, existsb_app, negb_orb. reflexivity. Qed.
Lemma keeps_loop s L body : (forall l, keeps s (body l) = true) -> keeps s (loop L body) = true.
Proof.
  intros H. unfold loop. induction (seq 0 L) as [|l ls IH]; [reflexivity|]. cbn [flat_map]. rewrite keeps_app, H, IH. reflexivity.
Qed.
Lemma keeps_unstag s p : keeps s (map unstag p) = keeps s p.
Proof.
  unfold keeps, bases. f_equal. f_equal. f_equal. induction p as [|ins p IH]; [reflexivity|]. cbn [map flat_map]. rewrite IH. f_equal.
  destruct ins; try reflexivity. destruct D as [M [|l]]; reflexivity.
Qed.
Lemma exec_keeps {A} (e : env A) src t p s k : keeps s p = true -> forall st, exec e src t p st (N s k) = st (N s k).
Proof.
  unfold exec. induction p as [|ins p IH]; intros H st; [reflexivity|]. cbn [fold_left].
  change (ins :: p) with ([ins] ++ p) in H. rewrite keeps_app in H. apply andb_prop in H. destruct H as [H1 H2].
  rewrite IH by exact H2. unfold keeps, bases in H1. 
  assert (W : forall (st0 : state A) r f, String.eqb s (nstr r) = false -> upd st0 r f (N s k) = st0 (N s k)).
  { intros st0 [s' l'] f E. apply upd_other. intros X. injection X as -> _. cbn in E. rewrite String.eqb_refl in E. discriminate. }
  destruct ins; cbn [flat_map tgt app map existsb] in H1; rewrite ?orb_false_r, ?negb_orb in H1; cbn [exec1]; try (apply negb_true_iff in H1; apply W; exact H1).
  apply andb_prop in H1. destruct H1 as [H1 H3]. apply negb_true_iff in H1, H3. rewrite W by exact H3. apply W. exact H1.
Qed.

Lemma loop_S L body : loop (S L) body = loop L body ++ body L.
Proof. unfold loop. rewrite seq_S, flat_map_app. cbn [flat_map]. rewrite app_nil_r. reflexivity. Qed.

Lemma Rsum_app l l' : Rsum (l ++ l') = Rsum l + Rsum l'.
Proof. unfold Rsum. induction l as [|x l IH]; cbn [app fold_right]; [ring|]. rewrite IH. ring. Qed.
Lemma Rsum_S (f : nat -> R) L : Rsum (map f (seq 0 (S L))) = Rsum (map f (seq 0 L)) + f L.
Proof. rewrite seq_S, map_app, Rsum_app. cbn. ring. Qed.
Lemma Rsum_ext {A} (f g : A -> R) l : (forall x, In x l -> f x = g x) -> Rsum (map f l) = Rsum (map g l).
Proof. intros H. f_equal. apply map_ext_in. exact H. Qed.

(** executes the body of a loop; comparisons of mechanisms are left *)
Ltac evl := lazy beta iota zeta delta [exec fold_left app unstag unstag_name exec1 upd nm_eqb nm_s String.eqb Ascii.eqb Bool.eqb andb negb map scal append setSurfaceZero];
  change (Nat.eqb 0 0) with true; lazy beta iota.
Ltac real := change (a_add R_arith) with Rplus; change (a_sub R_arith) with Rminus; change (a_mul R_arith) with Rmult; change (a_q R_arith) with Q2R;
  change (num R_arith) with R.
Ltac rring := real; apply (Rplus_eq_reg_l 0); ring.
Ltac body := evl; real.

(** looks up vectors in an updated state *)
Ltac look := unfold exec; cbn [map unstag]; cbn [fold_left exec1 scal]; unfold nm_s in *; 
  repeat first [rewrite upd_same | rewrite upd_other by first [discriminate | congruence | (intros X; injection X; congruence)]]; real.

Section loops.
Variables (e : env R_arith) (src : acq R_arith) (t : nat).
Notation ex p st := (exec e src t (map unstag p) st).
Lemma ex_S L b st : ex (loop (S L) b) st = ex (b L) (ex (loop L b) st).
Proof. rewrite loop_S, map_app, exec_app. reflexivity. Qed.
Lemma ex_keeps p s k st : keeps s p = true -> ex p st (N s k) = st (N s k).
Proof. intros H. apply exec_keeps. rewrite keeps_unstag. exact H. Qed.

(** update -= k r[l] *)
Lemma loop_sub L k r st i : String.eqb r "update" = false ->
  ex (loop L (fun l => [ISubS "update" (SN k) (N r l)])) st (N "update" 0) i =
  st (N "update" 0) i - e_sca e k * Rsum (map (fun l => st (N r l) i) (seq 0 L)).
Proof.
  intros Hr. induction L as [|L IH]. { cbn. rring. }
  rewrite ex_S, Rsum_S. match goal with |- context [ex (loop L ?b) st] => set (s' := ex (loop L b) st) in * end. look. rewrite IH. unfold s'. rewrite ex_keeps; [rring|]. apply keeps_loop. intros l. unfold keeps. cbn. rewrite Hr. reflexivity.
Qed.
End loops.
