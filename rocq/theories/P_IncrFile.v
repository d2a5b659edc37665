(** C180: the file of the shots that are left after the thinning. *)
From Coq Require Import QArith.
From Verif Require Import Base M_Grid M_Acq M_IncrFile S_Acq L_AcqFile L_Acq L_Acq2.
Open Scope Z_scope.

Lemma uq_nodup l : forall acc, NoDup (acc ++ l) -> uq acc l = (acc ++ l)%list.
Proof.
  induction l as [|n l IH]; intros acc H; [cbn; rewrite app_nil_r; reflexivity|].
  assert (St : uq acc (n :: l) = uq (if existsb (Z.eqb n) acc then acc else (acc ++ [n])%list) l) by reflexivity.
  rewrite St. destruct (existsb (Z.eqb n) acc) eqn:E.
  - exfalso. apply existsb_in in E. apply NoDup_remove_2 in H. apply H. apply in_or_app. left. exact E.
  - rewrite IH; rewrite <- app_assoc; [reflexivity|exact H].
Qed.
Lemma lines_combine : forall inds nos, List.length inds = List.length nos ->
  incr_lines inds nos = Ok (map (fun p => (fst p + 1, snd p)) (combine inds nos)).
Proof.
  induction inds as [|i inds IH]; intros [|no nos] H; try discriminate; [reflexivity|].
  cbn [incr_lines combine map]. rewrite IH by (cbn in H; congruence). reflexivity.
Qed.
Lemma thin_settings {F} fuel (all : list (source F)) shotIncr DH inds out : thin fuel all shotIncr DH = Ok (inds, out) ->
  Forall2 (fun i s => 0 <= i /\ nth_error all (Z.to_nat i) = Some s) inds out.
Proof.
  unfold thin. destruct (_ && _)%bool.
  - intros H. apply bind_ok in H. destruct H as (len0 & _ & H). apply bind_ok in H. destruct H as (kept & _ & H).
    apply bind_ok in H. destruct H as (st & G & H). inversion H; subst. clear H. revert out G.
    induction inds as [|i r IH]; intros out G; [inversion G; constructor|].
    apply bind_ok in G. destruct G as (s & Gs & G). apply bind_ok in G. destruct G as (t & Gt & G). inversion G; subst.
    constructor; [|apply IH; exact Gt]. apply vget_inv with (d := s) in Gs. destruct Gs as [G1 G2]. split; [lia|].
    rewrite (nth_error_nth' all s) by lia. f_equal. exact G2.
  - intros H. inversion H; subst. clear H.
    assert (K : forall (l pre : list (source F)), Forall2 (fun i s => 0 <= i /\ nth_error (pre ++ l) (Z.to_nat i) = Some s)
               (zseq (Z.of_nat (List.length pre)) (List.length l)) l).
    { induction l as [|s l IH]; intros pre; [constructor|]. cbn [List.length zseq]. constructor.
      - split; [lia|]. rewrite Nat2Z.id, nth_error_app2, Nat.sub_diag by lia. reflexivity.
      - specialize (IH (pre ++ [s])). rewrite app_length in IH. cbn [List.length] in IH.
        replace (Z.of_nat (List.length pre) + 1) with (Z.of_nat (List.length pre + 1)) by lia.
        rewrite <- app_assoc in IH. exact IH. }
    apply (K out []).
Qed.

(** Without a thinning no file is written.  With one: if the kept sources belong to different shots, the file has for
    each of them, in order, its place in the list of all sources (from one) and its shot number; if two of them belong
    to one shot, the program stops. *)
Theorem C180_file : forall F fuel (all : list (source F)) shotIncr DH inds out nos,
  thin fuel all shotIncr DH = Ok (inds, out) -> calcuniqueShotNo out = Ok nos ->
  (shotIncr <= DH -> writeShotIndsIncr inds nos shotIncr DH = Ok None)%Q /\
  ((DH < shotIncr)%Q -> NoDup (map shot_of out) ->
     exists lines, writeShotIndsIncr inds nos shotIncr DH = Ok (Some lines) /\
     Forall2 (fun line s => nth_error all (Z.to_nat (fst line - 1)) = Some s /\ 1 <= fst line /\
                            snd line = Z.abs (sourceNo s)) lines out) /\
  ((DH < shotIncr)%Q -> ~ NoDup (map shot_of out) -> writeShotIndsIncr inds nos shotIncr DH = Throw).
Proof.
  intros F fuel all shotIncr DH inds out nos Ht En. pose proof (thin_settings _ _ _ _ _ _ Ht) as T.
  assert (Hout : out <> []) by (intros ->; discriminate).
  assert (L : List.length inds = List.length out) by (clear - T; induction T; cbn; congruence).
  destruct (unique_lem out Hout) as (u & Eu & NN & Hin & _). rewrite En in Eu. inversion Eu; subst u. clear Eu.
  assert (B : forall x y : Q, (x <= y)%Q -> Qle_bool x y = true) by (intros; apply Qle_bool_iff; assumption).
  assert (C : (DH < shotIncr)%Q -> Qle_bool shotIncr DH = false).
  { intros H. destruct (Qle_bool shotIncr DH) eqn:E; [|reflexivity]. apply Qle_bool_iff in E.
    exfalso. apply (Qlt_not_le _ _ H E). }
  unfold writeShotIndsIncr. split; [|split].
  - intros H. rewrite (B _ _ H). reflexivity.
  - intros H ND. rewrite (C H). cbn [negb].
    assert (E : nos = map shot_of out).
    { destruct out as [|s0 r]; [contradiction|]. unfold calcuniqueShotNo in En. fold (shot_of s0) in En.
      rewrite uq_start in En. inversion En. apply (uq_nodup (map shot_of (s0 :: r)) []). exact ND. }
    subst nos. rewrite map_length, L, Nat.eqb_refl. cbn [negb].
    rewrite lines_combine by (rewrite map_length; exact L). cbn [bind]. eexists. split; [reflexivity|].
    clear - T. induction T as [|i s inds out [H1 H2] _ IH]; [constructor|]. cbn [map combine]. constructor; [|exact IH].
    cbn [fst snd]. replace (i + 1 - 1) with i by lia. split; [exact H2|]. split; [lia|reflexivity].
  - intros H ND. rewrite (C H). cbn [negb].
    destruct (Nat.eqb_spec (List.length inds) (List.length nos)) as [E|E]; [|reflexivity].
    exfalso. apply ND. apply (NoDup_incl_NoDup NN).
    + rewrite map_length. lia.
    + intros n Hn. apply Hin. exact Hn.
Qed.
Print Assumptions C180_file.

(** Five sources 10 points apart, thinned to every second one: sources 1, 3 and 5 are kept; if the third one belongs to
    the first shot the program stops. *)
Definition at_x (n x : Z) : source Z := mkSrc n (mkC x 5 0) 1 1 1 5 7 0 0.
Example C180_ex : exists inds out, thin 99 [at_x 4 10; at_x 7 20; at_x (-9) 30; at_x 11 40; at_x 13 50] 20 1 = Ok (inds, out) /\
  calcuniqueShotNo out = Ok [4; 9; 13] /\
  writeShotIndsIncr inds [4; 9; 13] 20 1 = Ok (Some [(1, 4); (3, 9); (5, 13)]).
Proof. do 2 eexists. split; [vm_compute; reflexivity|]. split; reflexivity. Qed.
Example C180_ex_two : exists inds out nos, thin 99 [at_x 4 10; at_x 7 20; at_x 4 30; at_x 11 40; at_x 13 50] 20 1 = Ok (inds, out) /\
  calcuniqueShotNo out = Ok nos /\ writeShotIndsIncr inds nos 20 1 = Throw.
Proof. do 3 eexists. split; [vm_compute; reflexivity|]. split; reflexivity. Qed.
