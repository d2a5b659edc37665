(** C158, C159: the common offset profiles collected from all shot domains. *)
From Coq Require Import Reals String Lra.
From Verif Require Import Base M_Acq M_Wave M_Cop S_Cop L_Cop.
Open Scope Z_scope.
Local Notation length := List.length.

Section Collect.
Variable has : mat -> bool.
Variable resample : row -> row.
Variable seismic norm3 sumAGC : bool.
Variable c NT D B : nat.
Variable fmt : Z.
Variable base : string.
Variable nos : list Z.
Variable rw tr ag : Z -> Z -> row.
Hypothesis Hhas : counts has.
Hypothesis Hc : (c < 4)%nat.
Hypothesis Hfmt : fmt <> 5.
Hypothesis HD : (1 <= D)%nat.
Hypothesis Hnos : length nos = (D * B)%nat.
Hypothesis Hn : (2 <= D * B)%nat.
Hypothesis Htr : forall p k, 0 <= k < Z.of_nat (D * B) -> trace NT (rw p k) /\ trace NT (tr p k) /\ trace NT (ag p k).

Let run (decompose : bool) :=
  collect has resample seismic (fun p k => single c (rw p k)) (fun p k => single c (tr p k)) (fun p k => single c (ag p k))
    norm3 fmt base sumAGC nos decompose NT (Z.of_nat D).

Lemma HB : (1 <= B)%nat. Proof using Hn. clear - Hn. destruct B; lia. Qed.

Lemma all_mine inds : (forall k, 0 <= k < Z.of_nat (D * B) -> vget inds k = Ok k) -> forall r, (r < D)%nat ->
  mine (D * B) D (Z.of_nat r) <> [] /\
  forall k, In k (mine (D * B) D (Z.of_nat r)) -> 0 <= k < Z.of_nat (D * B) /\ vget inds k = Ok k.
Proof using HD Hn.
  clear - HD Hn.
  intros Hi r Hr. pose proof HB as HB. split.
  - intros E. assert (I : In (Z.of_nat (r * B)) (mine (D * B) D (Z.of_nat r))) by (apply mine_in; [assumption..|lia]).
    rewrite E in I. exact I.
  - intros k I. apply mine_in in I; [|assumption..]. assert (0 <= k < Z.of_nat (D * B)) by nia. auto.
Qed.
Lemma inds_ok m : (D * B <= m)%nat -> forall l k, 0 <= k < Z.of_nat (D * B) -> vget (zseq 0 m ++ l) k = Ok k.
Proof using.
  clear.
  intros Hm l k Hk. unfold vget. destruct (k <? 0) eqn:E; [lia|].
  rewrite nth_error_app1 by (rewrite zseq_len; lia). rewrite (nth_error_nth' _ 0) by (rewrite zseq_len; lia).
  rewrite zseq_nth by lia. f_equal. lia.
Qed.
Lemma start_loose : Forall2 (loose (D * B) NT c (fun _ => zmat (D * B) NT) (fun _ => zmat (D * B) NT)) (seq 0 D)
   (repeat (fresh_handler (length nos) NT) (Z.to_nat (Z.of_nat D))).
Proof using Hnos Hc Hn.
  clear - Hnos Hc Hn.
  rewrite Nat2Z.id, Hnos, (fresh_hst (D * B) NT c Hn Hc). clear. generalize (D * B)%nat as n. intros n. generalize 0%nat as s.
  induction D as [|m IH]; intros s; cbn [seq repeat]; constructor; [|apply IH]. exists [], [], 0. reflexivity.
Qed.

Lemma first_round hil : hil 0 = false -> exists hs A,
  pass has resample seismic (fun p k => single c (rw p k)) (fun p k => single c (tr p k)) (fun p k => single c (ag p k))
    norm3 fmt base hil sumAGC nos 0 (mine (D * B) D) (calcUniqueShotInds [] 0 (Z.of_nat (D * B)) (Z.of_nat D))
    (repeat (fresh_handler (length nos) NT) (Z.to_nat (Z.of_nat D)))
  = Ok (hs, [((base ++ "." ++ component seismic c)%string, fmt, map (fun k => resample (tr 0 k)) (zseq 0 (D * B)))]) /\
  agc_inv (D * B) NT norm3 D A /\
  Forall2 (loose (D * B) NT c (fun r => if Nat.eqb r 0 then zmat (D * B) NT else profile (D * B) (tr 0)) A) (seq 0 D) hs.
Proof using Hhas Hc Hfmt HD Hnos Hn Htr.
  intros Hh. pose proof HB as HB.
  destruct (pass_hst has resample seismic (D * B) NT c Hhas Hn Hc rw tr ag norm3 fmt base hil sumAGC nos Hfmt Hnos
     (fun p k H => proj1 (Htr p k H)) (fun p k H => proj1 (proj2 (Htr p k H))) (fun p k H => proj2 (proj2 (Htr p k H)))
     0 (calcUniqueShotInds [] 0 (Z.of_nat (D * B)) (Z.of_nat D)) (mine (D * B) D) (fun _ => zmat (D * B) NT) (fun _ => zmat (D * B) NT) D
     (repeat (fresh_handler (length nos) NT) (Z.to_nat (Z.of_nat D)))) as (M & hs & A & EM & WM & E & IA & F).
  - exact HD.
  - intros; apply zmat_wf.
  - split; [intros; apply zmat_wf|reflexivity].
  - apply all_mine. unfold calcUniqueShotInds. cbn [app Z.eqb]. rewrite Nat2Z.id. intros k Hk.
    rewrite <- (app_nil_r (zseq 0 _)). apply inds_ok; [lia|exact Hk].
  - exact start_loose.
  - rewrite (first_sum D B NT) in EM by (try assumption; intros; apply Htr; assumption).
    exists hs, A. subst M. split; [|split; assumption]. rewrite E.
    rewrite (has_profile has (D * B) NT) by (try assumption; try lia; intros; apply Htr; assumption).
    unfold suffix. rewrite Hh, str_app_nil. unfold profile. rewrite map_map. reflexivity.
Qed.

(** C158: every shot records one trace of component [c], there are n = D*B > 1 shots in D shot domains.  One file is
    written: row k is the trace of shot k, for all numbers of shot domains, and there are no files for single shots. *)
Theorem C158_profile :
  run false = Ok [[((base ++ "." ++ component seismic c)%string, fmt, map (fun k => resample (tr 0 k)) (zseq 0 (D * B)))]].
Proof using Hhas Hc Hfmt HD Hnos Hn Htr.
  unfold run, collect. cbn [passes]. rewrite Hnos. fold (mine (D * B) D).
  destruct (first_round (fun p => (p =? 1) && false) eq_refl) as (hs & A & E & _). rewrite Hnos in E. rewrite E. reflexivity.
Qed.

(** C159: with a wavefield decomposition the shots are simulated twice.  The first profile is right.  The Hilbert profile,
    written unless the sums cancel to zero, contains too much: the first domain is the only one that clears its profile, so
    row k is the trace of the second round plus (D-1) times the trace of the first one for the shots of the first domain,
    plus (D-2) times for all others. *)
Definition hilbert_row (k : Z) : row :=
  plus_times NT (tr 1 k) (INR (if k <? Z.of_nat B then D - 1 else D - 2)) (tr 0 k).
Theorem C159_hilbert_exact : exists hilbert_files,
  run true = Ok [[((base ++ "." ++ component seismic c)%string, fmt, map (fun k => resample (tr 0 k)) (zseq 0 (D * B)))]; hilbert_files] /\
  hilbert_files =
    if has (map hilbert_row (zseq 0 (D * B)))
    then [((base ++ ".Hilbert." ++ component seismic c)%string, fmt, map (fun k => resample (hilbert_row k)) (zseq 0 (D * B)))]
    else [].
Proof using Hhas Hc Hfmt HD Hnos Hn Htr.
  eexists. split; [|reflexivity]. pose proof HB as HB.
  unfold run, collect. cbn [passes]. rewrite Hnos. fold (mine (D * B) D).
  destruct (first_round (fun p => (p =? 1) && true) eq_refl) as (hs & A & E & IA & F). rewrite Hnos in E. rewrite E. cbn [bind].
  change (0 + 1) with 1.
  destruct (pass_hst has resample seismic (D * B) NT c Hhas Hn Hc rw tr ag norm3 fmt base (fun p => (p =? 1) && true) sumAGC nos Hfmt Hnos
     (fun p k H => proj1 (Htr p k H)) (fun p k H => proj1 (proj2 (Htr p k H))) (fun p k H => proj2 (proj2 (Htr p k H)))
     1 (calcUniqueShotInds (calcUniqueShotInds [] 0 (Z.of_nat (D * B)) (Z.of_nat D)) 0 (Z.of_nat (D * B)) (Z.of_nat D)) (mine (D * B) D)
     (fun r => if Nat.eqb r 0 then zmat (D * B) NT else profile (D * B) (tr 0)) A D hs) as (M & hs' & A' & EM & WM & E' & _).
  - exact HD.
  - intros r _. destruct (Nat.eqb r 0); [apply zmat_wf|apply profile_wf; intros; apply Htr; assumption].
  - exact IA.
  - apply all_mine. unfold calcUniqueShotInds. cbn [app Z.eqb]. rewrite Nat2Z.id. apply inds_ok. lia.
  - exact F.
  - rewrite (second_sum D B NT) in EM by (try assumption; intros; apply Htr; assumption).
    subst M. rewrite E'. cbn [bind]. unfold suffix. cbn [Z.eqb Pos.eqb andb]. unfold profile, hilbert_row. rewrite map_map.
    rewrite str_app_assoc. reflexivity.
Qed.

(** Only with one shot domain is the Hilbert profile the one of the second round. *)
Lemma row_zero t : length t = NT -> forall s, plus_times NT t 0 s = t.
Proof using.
  clear.
  intros L s. apply (nth_ext _ _ 0%R 0%R); [unfold plus_times; rewrite map_length, seq_length; auto|].
  intros j Hj. unfold plus_times in Hj. rewrite map_length, seq_length in Hj. fold (sample (plus_times NT t 0 s) j). rewrite plus_times_sample by exact Hj.
  unfold sample. ring.
Qed.
Theorem C159_one_domain : D = 1%nat ->
  run true = Ok [[((base ++ "." ++ component seismic c)%string, fmt, map (fun k => resample (tr 0 k)) (zseq 0 (D * B)))];
                 [((base ++ ".Hilbert." ++ component seismic c)%string, fmt, map (fun k => resample (tr 1 k)) (zseq 0 (D * B)))]].
Proof using Hhas Hc Hfmt HD Hnos Hn Htr.
  intros E1. destruct C159_hilbert_exact as (hf & -> & ->).
  assert (E : forall k, In k (zseq 0 (D * B)) -> hilbert_row k = tr 1 k).
  { intros k Hk. apply zseq_in in Hk. unfold hilbert_row. rewrite E1. destruct (k <? Z.of_nat B) eqn:Ek; [|lia].
    apply row_zero. apply Htr. lia. }
  rewrite (map_ext_in hilbert_row (tr 1) _ E). fold (profile (D * B) (tr 1)).
  rewrite (has_profile has (D * B) NT) by (try assumption; try lia; intros; apply Htr; assumption).
  rewrite (map_ext_in (fun k => resample (hilbert_row k)) (fun k => resample (tr 1 k))); [reflexivity|].
  intros k Hk. rewrite E by exact Hk. reflexivity.
Qed.
End Collect.

(** With two or more domains row 0 of the Hilbert profile is never the trace of the second round. *)
Theorem C159_wrong NT D B tr : (2 <= D)%nat -> (1 <= B)%nat -> trace NT (tr 0 0) -> hilbert_row NT D B tr 0 <> tr 1 0.
Proof.
  intros HD HB [L (x & Hx & Hz)] E. unfold hilbert_row in E. replace (0 <? Z.of_nat B) with true in E by lia.
  apply (In_nth _ _ 0%R) in Hx. destruct Hx as (j & Hj & Ex).
  assert (S : sample (plus_times NT (tr 1 0) (INR (D - 1)) (tr 0 0)) j = sample (tr 1 0) j) by (rewrite E; reflexivity).
  rewrite plus_times_sample in S by lia. fold (sample (tr 0 0) j) in Ex. rewrite Ex in S.
  assert (0 < INR (D - 1))%R by (apply lt_0_INR; lia). 
  assert (P : (INR (D - 1) * x = 0)%R) by lra. apply Rmult_integral in P. destruct P as [P|P]; [lra|exact (Hz P)].
Qed.

(** getNumValues as the number of nonzero values: an instance of [counts]. *)
Definition nonzero (m : mat) : bool := existsb (existsb (fun x => if Req_EM_T x 0 then false else true)) m.
Lemma nonzero_counts : counts nonzero.
Proof.
  split; [reflexivity|]. intros m (r & x & Hr & Hx & Hz). apply existsb_exists. exists r. split; [exact Hr|].
  apply existsb_exists. exists x. split; [exact Hx|]. destruct (Req_EM_T x 0); [contradiction|reflexivity].
Qed.
Lemma one_trace : trace 1 [1%R].
Proof. split; [reflexivity|]. exists 1%R. split; [left; reflexivity|lra]. Qed.

(** The claim that the Hilbert profile contains the traces of the second round is false for two shots in two domains. *)
Theorem C159_refuted : exists has resample seismic c NT D B fmt base nos rw tr ag norm3 sumAGC,
  counts has /\ (c < 4)%nat /\ fmt <> 5 /\ (1 <= D)%nat /\ length nos = (D * B)%nat /\ (2 <= D * B)%nat /\
  (forall p k, 0 <= k < Z.of_nat (D * B) -> trace NT (rw p k) /\ trace NT (tr p k) /\ trace NT (ag p k)) /\
  ~ exists first,
    collect has resample seismic (fun p k => single c (rw p k)) (fun p k => single c (tr p k)) (fun p k => single c (ag p k))
      norm3 fmt base sumAGC nos true NT (Z.of_nat D)
    = Ok [first; [((base ++ ".Hilbert." ++ component seismic c)%string, fmt, map (fun k => resample (tr 1 k)) (zseq 0 (D * B)))]].
Proof.
  exists nonzero, (fun t => t), true, 1%nat, 1%nat, 2%nat, 1%nat, 1, "out"%string, [1; 2], (fun _ _ => [1%R]), (fun _ _ => [1%R]), (fun _ _ => [1%R]), true, true.
  assert (T : forall p k : Z, 0 <= k < Z.of_nat (2 * 1) -> trace 1 ((fun _ _ : Z => [1%R]) p k) /\
    trace 1 ((fun _ _ : Z => [1%R]) p k) /\ trace 1 ((fun _ _ : Z => [1%R]) p k)) by (intros; repeat split; apply one_trace).
  split; [exact nonzero_counts|]. do 3 (split; [lia|]). split; [reflexivity|]. split; [lia|]. split; [exact T|].
  intros (first & E).
  destruct (C159_hilbert_exact nonzero (fun t => t) true true true 1 1 2 1 1 "out" [1; 2] (fun _ _ => [1%R]) (fun _ _ => [1%R]) (fun _ _ => [1%R])
    nonzero_counts ltac:(lia) ltac:(lia) ltac:(lia) eq_refl ltac:(lia) T) as (hf & E' & Eh).
  pose proof (eq_trans (eq_sym E) E') as Q. injection Q as _ Q. rewrite Eh in Q.
  destruct (nonzero _); [|discriminate]. injection Q as Q _. 
  cbn in Q. lra.
Qed.

(** Sources of different types: the handler functions only treat the first component with traces.  Shot 0 has a trace of
    component p, shot 1 one of component vx.  With one domain the trace of shot 0 is in no file; with two domains the
    p profile contains the vx trace. *)
Definition two_types (x y : row) (_ k : Z) : list mat := if k =? 0 then [[x]; []; []; []] else [[]; [y]; []; []].
Section Types.
Variable has : mat -> bool.
Variable resample : row -> row.
Variable x y : R.
Variable fmt : Z.
Variable base : string.
Variable a b : Z.
Hypothesis Hhas : counts has.
Hypothesis Hf : fmt <> 5.
Hypothesis Hx : x <> 0%R.
Hypothesis Hy : y <> 0%R.

Lemma has_in (m : mat) r z : In r m -> In z r -> z <> 0%R -> has m = true.
Proof using Hhas. intros. apply (proj2 Hhas). exists r, z. auto. Qed.
Lemma w_none name ag C A i : write1 has resample fmt name (mkSeis [] ag C A i) = Ok (mkSeis [] ag C A i, []).
Proof using Hhas. apply write1_none; [exact Hhas|reflexivity]. Qed.
Lemma w_put name z ag p q A i : z <> 0%R -> write1 has resample fmt name (mkSeis [[z]] ag [[p]; [q]] A i)
  = (C <- vset [[p]; [q]] i [z] ;; Ok (mkSeis [[z]] ag C A i, [])).
Proof using Hhas Hf.
  intros Hz. unfold write1. cbn [s_data s_agc s_cop s_acop s_ind length].
  rewrite (has_in [[z]] [z] z) by (try left; auto). rewrite (proj2 (Z.eqb_neq fmt 5) Hf). reflexivity.
Qed.
Lemma w_prof name p q ag C A i : p <> 0%R \/ q <> 0%R ->
  write1 has resample fmt name (mkSeis [[p]; [q]] ag C A i)
  = Ok (mkSeis [[p]; [q]] ag C A i, [(name, fmt, [resample [p]; resample [q]])]).
Proof using Hhas Hf.
  intros Hz. unfold write1. cbn [s_data s_agc s_cop s_acop s_ind length].
  replace (has [[p]; [q]]) with true.
  - rewrite (proj2 (Z.eqb_neq fmt 5) Hf). reflexivity.
  - symmetry. destruct Hz as [Hz|Hz]; [apply (has_in _ [p] p)|apply (has_in _ [q] q)]; cbn; auto.
Qed.

Ltac go := repeat (progress (
  unfold setShotInd, on_first, assignCOP, own_cop, fresh_handler, allocateCOP, zmat, zero_of, suffix;
  cbn [first_used s_data length Nat.ltb Nat.leb upd_at load write_all typeStrings s_agc s_cop s_acop s_ind repeat map
       vset nset Z.ltb Z.compare Z.to_nat bind app get_cop set_cop nth_error option_map
       forallb all_some msum madd radd fold_left andb negb Z.eqb];
  try change (Pos.to_nat 1) with 1%nat; rewrite ?(w_put _ x) by exact Hx; rewrite ?(w_put _ y) by exact Hy; rewrite ?w_none)).

Theorem C158_types_one_domain :
  collect has resample true (two_types [x] [y]) (two_types [x] [y]) (two_types [x] [y]) false fmt base false [a; b] false 1 1
  = Ok [[((base ++ ".vx")%string, fmt, [resample [0%R]; resample [y]])]].
Proof using Hhas Hf Hx Hy.
  assert (Z0 : two_types [x] [y] 0 0 = [[[x]]; []; []; []]) by reflexivity.
  assert (Z1 : two_types [x] [y] 0 1 = [[]; [[y]]; []; []]) by reflexivity.
  unfold collect. change (repeat _ _) with [fresh_handler 2 1]. cbn [passes length]. unfold pass. cbn [domains].
  change (zseq (block_lb _ _ _) _) with [0; 1]. change (calcUniqueShotInds _ _ _ _) with [0; 1].
  cbn [shots]. change (vget [0; 1] 0) with (Ok 0). cbn [bind]. change (vget [a; b] 0) with (Ok a). cbn [bind].
  change (vget [0; 1] 1) with (Ok 1). cbn [bind]. change (vget [a; b] 1) with (Ok b). cbn [bind].
  rewrite Z0, Z1. unfold write_handler. go. unfold sum_domains. go.
  rewrite (has_in _ [y] y) by (cbn; auto). go. rewrite w_prof by auto. go. rewrite str_app_nil. reflexivity.
Qed.
Theorem C158_types_two_domains :
  collect has resample true (two_types [x] [y]) (two_types [x] [y]) (two_types [x] [y]) false fmt base false [a; b] false 1 2
  = Ok [[((base ++ ".p")%string, fmt, [resample [x]; resample [y]])]].
Proof using Hhas Hf Hx Hy.
  assert (Z0 : two_types [x] [y] 0 0 = [[[x]]; []; []; []]) by reflexivity.
  assert (Z1 : two_types [x] [y] 0 1 = [[]; [[y]]; []; []]) by reflexivity.
  unfold collect. change (repeat _ _) with [fresh_handler 2 1; fresh_handler 2 1]. cbn [passes length]. unfold pass. cbn [domains].
  change (zseq (block_lb _ _ 0) _) with [0]. change (zseq (block_lb _ _ (0 + 1)) _) with [1]. change (calcUniqueShotInds _ _ _ _) with [0; 1].
  cbn [shots]. change (vget [0; 1] 0) with (Ok 0). cbn [bind]. change (vget [a; b] 0) with (Ok a). cbn [bind].
  change (vget [0; 1] 1) with (Ok 1). cbn [bind]. change (vget [a; b] 1) with (Ok b). cbn [bind].
  rewrite Z0, Z1. unfold write_handler. go. unfold sum_domains. go.
  rewrite (has_in [[0%R]; [y]] [y] y) by (cbn; auto). rewrite (has_in [[x]; [0%R]] [x] x) by (cbn; auto). go.
  replace (x + 0)%R with x by ring. replace (0 + y)%R with y by ring.
  rewrite w_prof by auto. go. rewrite str_app_nil. reflexivity.
Qed.
End Types.

(** A case for C158 and C159: four shots in two domains. *)
Example C158_ex : collect nonzero (fun t => t) true (fun _ k => single 1 [IZR (k + 1); 0%R]) (fun p k => single 1 [IZR (k + 1); IZR p])
    (fun _ _ => single 1 [1%R; 1%R]) true 1 "out" true [1; 2; 3; 4] false 2 2
  = Ok [[("out.vx"%string, 1%Z, [[1; 0]; [2; 0]; [3; 0]; [4; 0]])]]%R.
Proof.
  assert (T : forall k : Z, 0 <= k < Z.of_nat (2 * 2) -> forall z, trace 2 [IZR (k + 1); z]).
  { intros k Hk z. split; [reflexivity|]. exists (IZR (k + 1)). split; [left; reflexivity|]. apply not_0_IZR. lia. }
  refine (C158_profile nonzero (fun t => t) true true true 1 2 2 2 1 "out" [1; 2; 3; 4]
    (fun _ k => [IZR (k + 1); 0%R]) (fun p k => [IZR (k + 1); IZR p]) (fun _ _ => [1%R; 1%R])
    nonzero_counts _ _ _ _ _ _); try lia; [reflexivity|].
  intros p k Hk. repeat split; try apply T; try exact Hk. exists 1%R. split; [left; reflexivity|lra].
Qed.
Print Assumptions C158_profile.
Print Assumptions C158_types_one_domain.
Print Assumptions C158_types_two_domains.
Print Assumptions C159_hilbert_exact.
Print Assumptions C159_one_domain.
Print Assumptions C159_wrong.
Print Assumptions C159_refuted.
