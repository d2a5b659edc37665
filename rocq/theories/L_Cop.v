(** Proofs about the common offset profile. *)
From Coq Require Import Reals String Lra.
From Verif Require Import Base M_Acq M_Wave M_Cop S_Cop.
Open Scope Z_scope.
Local Notation length := List.length.

(** ** Matrices *)
Definition wf (n NT : nat) (m : mat) : Prop := length m = n /\ forall r, In r m -> length r = NT.
Definition ent (m : mat) (k j : nat) : R := nth j (nth k m []) 0%R.

Lemma upd_at_length {A} i (f : A -> A) l : length (upd_at i f l) = length l.
Proof. revert i. induction l as [|x l IH]; intros [|i]; cbn; auto. Qed.
Lemma upd_at_nth {A} i (f : A -> A) l k d : (i < length l)%nat ->
  nth k (upd_at i f l) d = if Nat.eqb k i then f (nth i l d) else nth k l d.
Proof.
  revert i k. induction l as [|x l IH]; intros i k H; cbn in H; [lia|].
  destruct i as [|i], k as [|k]; cbn; auto. apply IH. lia.
Qed.
Lemma upd_at_in {A} i (f : A -> A) l y : In y (upd_at i f l) -> In y l \/ exists x, In x l /\ y = f x.
Proof.
  revert i. induction l as [|x l IH]; intros [|i]; cbn; auto.
  - intros [<-|H]; eauto.
  - intros [<-|H]; eauto. destruct (IH _ H) as [?|(z & ? & ?)]; eauto.
Qed.
Lemma nset_upd {A} (l : list A) i a : (i < length l)%nat -> nset l i a = Some (upd_at i (fun _ => a) l).
Proof.
  revert i. induction l as [|x l IH]; intros [|i] H; cbn in *; try lia; auto. rewrite IH by lia. reflexivity.
Qed.
Lemma vset_upd {A} (l : list A) k a : 0 <= k < Z.of_nat (length l) -> vset l k a = Ok (upd_at (Z.to_nat k) (fun _ => a) l).
Proof. intros H. unfold vset. destruct (k <? 0) eqn:E; [lia|]. rewrite nset_upd by lia. reflexivity. Qed.

Lemma nth_wf n NT m k : wf n NT m -> (k < n)%nat -> length (nth k m []) = NT.
Proof. intros [E H] Hk. apply H. apply nth_In. lia. Qed.

Lemma mat_eq n NT a b : wf n NT a -> wf n NT b ->
  (forall k j, (k < n)%nat -> (j < NT)%nat -> ent a k j = ent b k j) -> a = b.
Proof.
  intros Ha Hb H. apply (nth_ext a b [] []); [destruct Ha, Hb; congruence|].
  intros k Hk. assert (Hk' : (k < n)%nat) by (destruct Ha; lia).
  apply (nth_ext _ _ 0%R 0%R); [rewrite (nth_wf n NT a k), (nth_wf n NT b k) by assumption; reflexivity|].
  intros j Hj. rewrite (nth_wf n NT a k) in Hj by assumption. apply H; assumption.
Qed.

Lemma zmat_wf n NT : wf n NT (zmat n NT).
Proof.
  split; [apply repeat_length|]. intros r Hr. apply repeat_spec in Hr. subst. apply repeat_length.
Qed.
Lemma zmat_ent n NT k j : ent (zmat n NT) k j = 0%R.
Proof.
  unfold ent, zmat, row. destruct (Nat.lt_ge_cases k n) as [H|H].
  - assert (E : nth k (repeat (repeat 0%R NT) n) [] = repeat 0%R NT)
      by (apply (repeat_spec n); apply nth_In; rewrite repeat_length; exact H).
    rewrite E. destruct (nth_in_or_default j (repeat 0%R NT) 0%R) as [I|I]; [exact (repeat_spec _ _ _ I)|exact I].
  - rewrite (nth_overflow (repeat (repeat 0%R NT) n)) by (rewrite repeat_length; lia). destruct j; reflexivity.
Qed.
Lemma zero_of_wf n NT m : wf n NT m -> zero_of m = zmat n NT.
Proof.
  intros [<- H]. unfold zero_of, zmat. induction m as [|r m IH]; cbn; [reflexivity|]. f_equal.
  - rewrite <- (H r) by (left; reflexivity). clear. induction r; cbn; [reflexivity|f_equal; assumption].
  - apply IH. intros r' Hr. apply H. right. exact Hr.
Qed.

Lemma radd_len a b : length a = length b -> length (radd a b) = length a.
Proof. revert b. induction a as [|x a IH]; intros [|y b] H; cbn in *; try lia; auto. Qed.
Lemma radd_nth a b j : length a = length b -> nth j (radd a b) 0%R = (nth j a 0 + nth j b 0)%R.
Proof.
  revert b j. induction a as [|x a IH]; intros [|y b] j H; cbn in *; try lia.
  - destruct j; ring.
  - destruct j; [reflexivity|]. apply IH. lia.
Qed.
Lemma madd_wf n NT a b : wf n NT a -> wf n NT b -> wf n NT (madd a b).
Proof.
  intros [Ea Ha] [Eb Hb]. revert n b Ea Eb Hb. induction a as [|x a IH]; intros n [|y b] Ea Eb Hb; cbn in *; try lia.
  - split; [exact Ea|intros r []].
  - destruct n as [|n]; [lia|]. destruct (IH (fun r H => Ha r (or_intror H)) n b) as [L W]; try lia; [intros; apply Hb; auto|].
    split; [cbn; lia|]. intros r [<-|Hr]; [|apply W, Hr].
    rewrite radd_len; [apply Ha; auto|]. rewrite Ha, Hb by auto. reflexivity.
Qed.
Lemma madd_ent n NT a b k j : wf n NT a -> wf n NT b -> ent (madd a b) k j = (ent a k j + ent b k j)%R.
Proof.
  unfold ent. intros [Ea Ha] [Eb Hb]. revert n b k Ea Eb Hb. induction a as [|x a IH]; intros n [|y b] k Ea Eb Hb; cbn [length] in *; try lia.
  - destruct k, j; cbn; ring.
  - destruct k as [|k]; cbn [madd nth].
    + apply radd_nth. rewrite Ha, Hb by (left; reflexivity). reflexivity.
    + destruct n as [|n]; [lia|]. apply (IH (fun r H => Ha r (or_intror H)) n); try lia. intros; apply Hb; right; assumption.
Qed.
Definition total (l : list R) : R := fold_right Rplus 0%R l.
Lemma fold_madd n NT ms m : wf n NT m -> (forall x, In x ms -> wf n NT x) ->
  wf n NT (fold_left madd ms m) /\
  forall k j, ent (fold_left madd ms m) k j = (ent m k j + total (map (fun x => ent x k j) ms))%R.
Proof.
  revert m. induction ms as [|a ms IH]; intros m Hm H; cbn [fold_left map total fold_right].
  - split; [exact Hm|]. intros. ring.
  - destruct (IH (madd m a)) as [W E].
    + apply madd_wf; [exact Hm|apply H; left; reflexivity].
    + intros x Hx. apply H. right. exact Hx.
    + split; [exact W|]. intros k j. rewrite E. rewrite (madd_ent n NT) by (try exact Hm; apply H; left; reflexivity).
      unfold total. ring.
Qed.
Lemma msum_spec n NT ms : ms <> [] -> (forall x, In x ms -> wf n NT x) ->
  wf n NT (msum ms) /\ forall k j, ent (msum ms) k j = total (map (fun x => ent x k j) ms).
Proof.
  destruct ms as [|m ms]; [congruence|]. intros _ H. cbn [msum].
  destruct (fold_madd n NT ms m) as [W E]; [apply H; left; reflexivity|intros; apply H; right; assumption|].
  split; [exact W|]. intros. rewrite E. reflexivity.
Qed.

(** Sums over the domains in which one of them plays a special part. *)
Lemma total_zero (f : nat -> R) l : (forall r, In r l -> f r = 0%R) -> total (map f l) = 0%R.
Proof.
  induction l as [|a l IH]; intros H; cbn; [reflexivity|]. rewrite H by (left; reflexivity).
  fold (total (map f l)). rewrite IH by (intros; apply H; right; assumption). ring.
Qed.
Lemma total_const (f : nat -> R) y l : (forall r, In r l -> f r = y) -> total (map f l) = (INR (length l) * y)%R.
Proof.
  induction l as [|a l IH]; intros H; cbn [map total fold_right length]; [cbn; ring|].
  fold (total (map f l)). rewrite H by (left; reflexivity). rewrite IH by (intros; apply H; right; assumption). rewrite S_INR. ring.
Qed.
Lemma total_app f l l' : total (map f (l ++ l')) = (total (map f l) + total (map (f : nat -> R) l'))%R.
Proof.
  unfold total. induction l as [|a l IH]; cbn [map app fold_right]; [ring|]. rewrite IH. ring.
Qed.
Lemma seq_split D o : (o < D)%nat -> seq 0 D = (seq 0 o ++ o :: seq (S o) (D - o - 1))%list.
Proof.
  intros H. replace D with (o + S (D - o - 1))%nat at 1 by lia. rewrite seq_app. reflexivity.
Qed.
Lemma sum_special (f : nat -> R) D o x y : (o < D)%nat -> f o = x -> (forall r, (r < D)%nat -> r <> o -> f r = y) ->
  total (map f (seq 0 D)) = (x + INR (D - 1) * y)%R.
Proof.
  intros Ho Hx Hy. rewrite (seq_split D o Ho), total_app. cbn [map total fold_right].
  fold (total (map f (seq (S o) (D - o - 1)))).
  rewrite (total_const f y (seq 0 o)) by (intros r Hr; apply in_seq in Hr; apply Hy; lia).
  rewrite (total_const f y (seq (S o) _)) by (intros r Hr; apply in_seq in Hr; apply Hy; lia).
  rewrite !seq_length, Hx. replace (D - 1)%nat with (o + (D - o - 1))%nat by lia. rewrite plus_INR. ring.
Qed.
Lemma sum_special2 (f : nat -> R) D o x y : (0 < o < D)%nat -> f 0%nat = 0%R -> f o = x ->
  (forall r, (r < D)%nat -> r <> o -> r <> 0%nat -> f r = y) ->
  total (map f (seq 0 D)) = (x + INR (D - 2) * y)%R.
Proof.
  intros Ho H0 Hx Hy. rewrite (seq_split D o) by lia. rewrite total_app. cbn [map total fold_right].
  fold (total (map f (seq (S o) (D - o - 1)))).
  destruct o as [|o]; [lia|]. cbn [seq map total fold_right]. fold (total (map f (seq 1 o))).
  rewrite (total_const f y (seq 1 o)) by (intros r Hr; apply in_seq in Hr; apply Hy; lia).
  rewrite (total_const f y (seq (S (S o)) _)) by (intros r Hr; apply in_seq in Hr; apply Hy; lia).
  rewrite !seq_length, Hx, H0. replace (D - 2)%nat with (o + (D - S o - 1))%nat by lia. rewrite plus_INR. ring.
Qed.

(** ** Writing the rows of several shots *)
Fixpoint put (m : mat) (ks : list Z) (f : Z -> row) : mat :=
  match ks with [] => m | k :: ks => put (upd_at (Z.to_nat k) (fun _ => f k) m) ks f end.
Lemma put_wf n NT ks f m : wf n NT m -> (forall k, In k ks -> length (f k) = NT) -> wf n NT (put m ks f).
Proof.
  revert m. induction ks as [|k ks IH]; intros m Hm H; cbn; [exact Hm|]. apply IH.
  - destruct Hm as [L W]. split; [rewrite upd_at_length; exact L|]. intros r Hr. apply upd_at_in in Hr.
    destruct Hr as [Hr|(x & _ & ->)]; [apply W, Hr|apply H; left; reflexivity].
  - intros; apply H; right; assumption.
Qed.
Lemma put_nth n m ks f j : length m = n -> (forall k, In k ks -> 0 <= k < Z.of_nat n) -> 
  nth j (put m ks f) [] = if existsb (fun k => Nat.eqb j (Z.to_nat k)) ks then f (Z.of_nat j) else nth j m [].
Proof.
  revert m. induction ks as [|k ks IH]; intros m Hm H; cbn [put existsb]; [reflexivity|].
  rewrite IH by (try rewrite upd_at_length; auto; intros; apply H; right; assumption).
  pose proof (H k (or_introl eq_refl)) as Hk.
  rewrite upd_at_nth by lia.
  destruct (Nat.eqb j (Z.to_nat k)) eqn:E; cbn [orb]; [|reflexivity].
  apply Nat.eqb_eq in E. subst j. rewrite Z2Nat.id by lia. destruct (existsb _ ks); reflexivity.
Qed.

(** ** The handlers: only component [c] has traces *)
Section Handlers.
Variable has : mat -> bool.
Variable resample : row -> row.
Variable seismic : bool.
Variable n NT c : nat.
Hypothesis Hhas : counts has.
Hypothesis Hn : (2 <= n)%nat.
Hypothesis Hc : (c < 4)%nat.
Let Zm := zmat n NT.

Definition hst (d a C A : mat) (i : Z) : handler :=
  map (fun j => if Nat.eqb j c then mkSeis d a C A i else mkSeis [] [] Zm Zm 0) [0; 1; 2; 3]%nat.

Ltac comps := destruct c as [|[|[|[|c']]]]; [| | | |exfalso; lia].

Lemma fresh_hst : fresh_handler n NT = hst [] [] Zm Zm 0.
Proof. unfold hst. comps; reflexivity. Qed.
Lemma load_hst t a d0 a0 C A i : load (single c t) (single c a) (hst d0 a0 C A i) = hst [t] [a] C A i.
Proof. unfold hst. comps; reflexivity. Qed.
Lemma on_first_hst f x d a C A i : f (mkSeis (x :: d) a C A i) = f (mkSeis (x :: d) a C A i) ->
  on_first f (hst (x :: d) a C A i) =
  map (fun j => if Nat.eqb j c then f (mkSeis (x :: d) a C A i) else mkSeis [] [] Zm Zm 0) [0; 1; 2; 3]%nat.
Proof. intros _. unfold hst. comps; reflexivity. Qed.
Lemma setShotInd_hst k x d a C A i : setShotInd k (hst (x :: d) a C A i) = hst (x :: d) a C A k.
Proof. unfold setShotInd. rewrite on_first_hst by reflexivity. reflexivity. Qed.
Lemma assignCOP_hst x d a C A i : assignCOP (hst (x :: d) a C A i) = hst C A (zero_of C) (zero_of A) i.
Proof. unfold assignCOP. rewrite on_first_hst by reflexivity. reflexivity. Qed.
Lemma set_cop_hst g m x d a C A i : on_first (set_cop g m) (hst (x :: d) a C A i) =
  if g then hst (x :: d) a C m i else hst (x :: d) a m A i.
Proof. rewrite on_first_hst by reflexivity. destruct g; reflexivity. Qed.
Lemma own_cop_hst g x d a C A i : own_cop g (hst (x :: d) a C A i) = Some (if g then A else C).
Proof. unfold hst. comps; destruct g; reflexivity. Qed.

Lemma write1_none fmt name s : s_data s = [] -> write1 has resample fmt name s = Ok (s, []).
Proof. intros E. unfold write1. rewrite E. rewrite (proj1 Hhas). reflexivity. Qed.
Lemma write_hst fmt name d a C A i :
  write_handler has resample seismic fmt name (hst d a C A i) =
  bind (write1 has resample fmt (name ++ "." ++ component seismic c)%string (mkSeis d a C A i))
    (fun '(s, f) => Ok (hst (s_data s) (s_agc s) (s_cop s) (s_acop s) (s_ind s), f)).
Proof.
  unfold write_handler, hst, component, typeStrings.
  comps; destruct seismic; cbn [map Nat.eqb write_all nth];
    rewrite ?(write1_none fmt _ (mkSeis [] [] Zm Zm 0)) by reflexivity; cbn [bind];
    destruct (write1 has resample fmt _ (mkSeis d a C A i)) as [[[x1 x2 x3 x4 x5] f]| | |]; cbn [bind]; try reflexivity;
    rewrite ?(write1_none fmt _ (mkSeis [] [] Zm Zm 0)) by reflexivity; cbn [bind app s_data s_agc s_cop s_acop s_ind];
    rewrite ?app_nil_r; reflexivity.
Qed.

Lemma has_trace t : trace NT t -> has [t] = true.
Proof. intros [_ (x & Hx & Hz)]. apply (proj2 Hhas). exists t, x. repeat split; try assumption. left. reflexivity. Qed.

Lemma write_data_hst fmt name t a C A k : fmt <> 5 -> trace NT t -> wf n NT C -> 0 <= k < Z.of_nat n ->
  write_handler has resample seismic fmt name (hst [t] [a] C A k)
  = Ok (hst [t] [a] (upd_at (Z.to_nat k) (fun _ => t) C) A k, []).
Proof.
  intros Hf Ht HC Hk. rewrite write_hst. unfold write1. cbn [s_data s_agc s_cop s_acop s_ind length].
  rewrite (has_trace t Ht). destruct HC as [L _]. rewrite L. replace (Nat.ltb 1 n) with true by (symmetry; apply Nat.ltb_lt; lia).
  cbn [andb Nat.eqb]. rewrite (proj2 (Z.eqb_neq fmt 5) Hf). cbn [negb].
  change (vget [t] 0) with (Ok t). cbn [bind]. rewrite vset_upd by lia. reflexivity.
Qed.
Lemma write_agc_hst name t a C A k : trace NT t -> wf n NT C -> wf n NT A -> 0 <= k < Z.of_nat n ->
  write_handler has resample seismic 5 name (hst [t] [a] C A k)
  = Ok (hst [t] [a] C (upd_at (Z.to_nat k) (fun _ => a) A) k, []).
Proof.
  intros Ht HC HA Hk. rewrite write_hst. unfold write1. cbn [s_data s_agc s_cop s_acop s_ind length].
  rewrite (has_trace t Ht). destruct HC as [L _]. destruct HA as [L' _]. rewrite L.
  replace (Nat.ltb 1 n) with true by (symmetry; apply Nat.ltb_lt; lia).
  cbn [andb Nat.eqb negb Z.eqb Pos.eqb]. change (vget [a] 0) with (Ok a). cbn [bind]. rewrite vset_upd by lia. reflexivity.
Qed.
Lemma write_prof_hst fmt name M a C A k : fmt <> 5 -> wf n NT M ->
  write_handler has resample seismic fmt name (hst M a C A k)
  = Ok (hst M a C A k, if has M then [((name ++ "." ++ component seismic c)%string, fmt, map resample M)] else []).
Proof.
  intros Hf [L _]. rewrite write_hst. unfold write1. cbn [s_data s_agc s_cop s_acop s_ind]. rewrite L.
  replace (Nat.eqb n 1) with false by (symmetry; apply Nat.eqb_neq; lia). rewrite andb_false_r. cbn [andb].
  rewrite (proj2 (Z.eqb_neq fmt 5) Hf). cbn [negb]. destruct (has M); reflexivity.
Qed.

(** ** One round *)
Variable rw tr ag : Z -> Z -> row.
Variable norm3 : bool.
Variable fmt : Z.
Variable base : string.
Variable hilbert : Z -> bool.
Variable sumAGC : bool.
Variable nos : list Z.
Hypothesis Hfmt : fmt <> 5.
Hypothesis Hnos : length nos = n.
Hypothesis Hrw : forall p k, 0 <= k < Z.of_nat n -> trace NT (rw p k).
Hypothesis Htr : forall p k, 0 <= k < Z.of_nat n -> trace NT (tr p k).
Hypothesis Hag : forall p k, 0 <= k < Z.of_nat n -> trace NT (ag p k).

Let raw p k := single c (rw p k).
Let rec p k := single c (tr p k).
Let agc p k := single c (ag p k).

Definition new_agc (p : Z) (A : mat) (ks : list Z) : mat := if norm3 then put A ks (ag p) else A.

Lemma vget_ok {A} (l : list A) i d : 0 <= i < Z.of_nat (length l) -> vget l i = Ok (nth (Z.to_nat i) l d).
Proof.
  intros H. unfold vget. destruct (i <? 0) eqn:E; [lia|]. rewrite (nth_error_nth' l d) by lia. reflexivity.
Qed.

Lemma new_agc_wf p A ks : wf n NT A -> (forall k, In k ks -> 0 <= k < Z.of_nat n) -> wf n NT (new_agc p A ks).
Proof.
  intros H Hk. unfold new_agc. destruct norm3; [|exact H]. apply put_wf; [exact H|]. intros k Hi. apply Hag, Hk, Hi.
Qed.

Lemma shots_hst p inds ks d a C A i : wf n NT C -> wf n NT A -> ks <> [] ->
  (forall k, In k ks -> 0 <= k < Z.of_nat n /\ vget inds k = Ok k) ->
  exists x a' i', shots has resample seismic raw rec agc norm3 fmt base hilbert nos p ks inds (hst d a C A i)
    = Ok (hst [x] a' (put C ks (tr p)) (new_agc p A ks) i', []).
Proof.
  intros HC HA Hks H. revert d a C A i HC HA Hks H. induction ks as [|k ks IH]; intros d a C A i HC HA Hks H; [congruence|].
  clear Hks. destruct (H k (or_introl eq_refl)) as [Hk Ei].
  assert (HC' : wf n NT (put C [k] (tr p))) by (apply put_wf; [exact HC|intros k' [<-|[]]; apply Htr, Hk]).
  assert (HA' : wf n NT (new_agc p A [k])) by (apply new_agc_wf; [exact HA|intros k' [<-|[]]; exact Hk]).
  assert (S1 : shots has resample seismic raw rec agc norm3 fmt base hilbert nos p (k :: ks) inds (hst d a C A i)
     = (' (h, fs) <- shots has resample seismic raw rec agc norm3 fmt base hilbert nos p ks inds
          (hst [tr p k] [ag p k] (put C [k] (tr p)) (new_agc p A [k]) k) ;; Ok (h, fs))).
  { cbn [shots]. rewrite Ei. cbn [bind]. rewrite (vget_ok nos k 0) by lia. cbn [bind]. unfold raw, rec, agc.
    rewrite load_hst, setShotInd_hst. unfold new_agc. destruct norm3.
    - rewrite write_agc_hst by auto. cbn [bind]. rewrite load_hst.
      rewrite write_data_hst by auto. cbn [bind put app]. reflexivity.
    - cbn [bind]. rewrite load_hst. rewrite write_data_hst by auto. cbn [bind put app]. reflexivity. }
  rewrite S1. destruct ks as [|k2 ks].
  - cbn [shots bind put]. exists (tr p k), [ag p k], k. reflexivity.
  - destruct (IH [tr p k] [ag p k] (put C [k] (tr p)) (new_agc p A [k]) k HC' HA') as (x & a' & i' & E); [congruence|intros; apply H; right; assumption|].
    rewrite E. cbn [bind]. exists x, a', i'. cbn [put]. unfold new_agc. destruct norm3; reflexivity.
Qed.

(** The handlers of the domains: domain [r] has the profiles [C r] and [A r]. *)
Definition loose (C A : nat -> mat) (r : nat) (h : handler) : Prop := exists d a i, h = hst d a (C r) (A r) i.
Definition tight (C A : nat -> mat) (r : nat) (h : handler) : Prop := exists x d a i, h = hst (x :: d) a (C r) (A r) i.

Lemma domains_hst p inds (of_domain : Z -> list Z) C A m : forall s hs,
  (forall r, (s <= r < s + m)%nat -> wf n NT (C r) /\ wf n NT (A r)) ->
  (forall r, (s <= r < s + m)%nat -> of_domain (Z.of_nat r) <> [] /\
     forall k, In k (of_domain (Z.of_nat r)) -> 0 <= k < Z.of_nat n /\ vget inds k = Ok k) ->
  Forall2 (loose C A) (seq s m) hs ->
  exists hs', domains has resample seismic raw rec agc norm3 fmt base hilbert nos p of_domain inds (Z.of_nat s) hs = Ok (hs', []) /\
    Forall2 (tight (fun r => put (C r) (of_domain (Z.of_nat r)) (tr p)) (fun r => new_agc p (A r) (of_domain (Z.of_nat r)))) (seq s m) hs'.
Proof.
  induction m as [|m IH]; intros s hs Hw Hd HF; cbn [seq] in HF; inversion HF; subst; cbn [domains].
  - exists []. split; [reflexivity|constructor].
  - match goal with H : loose C A s ?h |- _ => destruct H as (d & a & i & ->) end.
    destruct (Hw s) as [W1 W2]; [lia|]. destruct (Hd s) as [E1 E2]; [lia|].
    destruct (shots_hst p inds (of_domain (Z.of_nat s)) d a (C s) (A s) i W1 W2 E1 E2) as (x & a' & i' & E).
    rewrite E. cbn [bind]. replace (Z.of_nat s + 1) with (Z.of_nat (S s)) by lia.
    match goal with H : Forall2 _ (seq (S s) m) ?l |- _ =>
      destruct (IH (S s) l) as (hs' & E' & F'); [intros; apply Hw; lia|intros; apply Hd; lia|exact H|] end.
    rewrite E'. cbn [bind app]. exists (hst [x] a' (put (C s) (of_domain (Z.of_nat s)) (tr p)) (new_agc p (A s) (of_domain (Z.of_nat s))) i' :: hs').
    split; [reflexivity|]. constructor; [exists x, [], a', i'; reflexivity|exact F'].
Qed.

Lemma all_some_map {A} (l : list A) : all_some (map Some l) = Some l.
Proof. induction l as [|x l IH]; cbn; [reflexivity|]. rewrite IH. reflexivity. Qed.
Lemma own_cops (g : bool) C A rs hs : Forall2 (tight C A) rs hs -> map (own_cop g) hs = map Some (map (if g then A else C) rs).
Proof.
  induction 1 as [|r h rs hs (x & d & a & i & ->) H IH]; cbn [map]; [reflexivity|]. rewrite own_cop_hst, IH. destruct g; reflexivity.
Qed.
Lemma set_cops (g : bool) m C A rs hs : Forall2 (tight C A) rs hs ->
  Forall2 (tight (if g then C else (fun _ : nat => m)) (if g then (fun _ : nat => m) else A)) rs (map (on_first (set_cop g m)) hs).
Proof.
  induction 1 as [|r h rs hs (x & d & a & i & ->) H IH]; cbn [map]; constructor; [|exact IH].
  rewrite set_cop_hst. exists x, d, a, i. destruct g; reflexivity.
Qed.
Lemma sum_domains_hst (g : bool) C A D hs : (1 <= D)%nat -> Forall2 (tight C A) (seq 0 D) hs ->
  (forall r, (r < D)%nat -> has ((if g then A else C) r) = true) ->
  exists hs', sum_domains has g hs = Ok hs' /\
   Forall2 (tight (if g then C else (fun _ : nat => msum (map C (seq 0 D)))) (if g then (fun _ : nat => msum (map A (seq 0 D))) else A)) (seq 0 D) hs'.
Proof.
  intros HD HF H. unfold sum_domains. rewrite (own_cops g C A _ _ HF).
  assert (E1 : forallb (fun o : option mat => match o with None => true | Some _ => false end)
             (map Some (map (if g then A else C) (seq 0 D))) = false) by (destruct D; [lia|reflexivity]).
  rewrite E1, all_some_map.
  assert (E2 : forallb has (map (if g then A else C) (seq 0 D)) = true).
  { apply forallb_forall. intros m Hm. apply in_map_iff in Hm. destruct Hm as (r & <- & Hr). apply in_seq in Hr. apply H. lia. }
  rewrite E2. eexists. split; [reflexivity|]. pose proof (set_cops g (msum (map (if g then A else C) (seq 0 D))) C A _ _ HF) as R.
  destruct g; exact R.
Qed.
Lemma sum_domains_none (g : bool) C A D hs : (1 <= D)%nat -> Forall2 (tight C A) (seq 0 D) hs ->
  (forall r, (r < D)%nat -> has ((if g then A else C) r) = false) -> sum_domains has g hs = Ok hs.
Proof.
  intros HD HF H. unfold sum_domains. rewrite (own_cops g C A _ _ HF).
  assert (E1 : forallb (fun o : option mat => match o with None => true | Some _ => false end)
             (map Some (map (if g then A else C) (seq 0 D))) = false) by (destruct D; [lia|reflexivity]).
  rewrite E1, all_some_map.
  assert (E2 : forallb has (map (if g then A else C) (seq 0 D)) = false).
  { destruct D; [lia|]. cbn [seq map forallb]. rewrite H by lia. reflexivity. }
  assert (E3 : forallb (fun m => negb (has m)) (map (if g then A else C) (seq 0 D)) = true).
  { apply forallb_forall. intros m Hm. apply in_map_iff in Hm. destruct Hm as (r & <- & Hr). apply in_seq in Hr. rewrite H by lia. reflexivity. }
  rewrite E2, E3. reflexivity.
Qed.

Lemma has_put C ks f : (forall k, In k ks -> 0 <= k < Z.of_nat n) -> length C = n -> ks <> [] ->
  (forall k, In k ks -> trace NT (f k)) -> has (put C ks f) = true.
Proof.
  intros Hk L Hne Ht. destruct ks as [|k ks]; [congruence|]. pose proof (Hk k (or_introl eq_refl)) as B.
  destruct (Ht k (or_introl eq_refl)) as [_ (x & Hx & Hz)].
  apply (proj2 Hhas). exists (f k), x. repeat split; try assumption.
  assert (E : nth (Z.to_nat k) (put C (k :: ks) f) [] = f k).
  { rewrite (put_nth n) by assumption. cbn [existsb]. rewrite Nat.eqb_refl. cbn [orb]. rewrite Z2Nat.id by lia. reflexivity. }
  rewrite <- E. apply nth_In. 
  assert (G : forall ks m, length (put m ks f) = length m).
  { clear. induction ks as [|k ks IH]; intros m; cbn; [reflexivity|]. rewrite IH, upd_at_length. reflexivity. }
  rewrite G. lia.
Qed.

(** What the profiles of the gain control satisfy before a round. *)
Definition agc_inv (D : nat) (A : nat -> mat) : Prop :=
  (forall r, (r < D)%nat -> wf n NT (A r)) /\ (norm3 = false -> forall r, (r < D)%nat -> A r = Zm).

Lemma sum_Zm D A : (1 <= D)%nat -> (forall r, (r < D)%nat -> A r = Zm) -> msum (map A (seq 0 D)) = Zm.
Proof.
  intros HD H. assert (W : forall x, In x (map A (seq 0 D)) -> wf n NT x).
  { intros x Hx. apply in_map_iff in Hx. destruct Hx as (r & <- & Hr). apply in_seq in Hr. rewrite H by lia. apply zmat_wf. }
  destruct (msum_spec n NT (map A (seq 0 D))) as [W' E]; [destruct D; [lia|discriminate]|exact W|].
  apply (mat_eq n NT); [exact W'|apply zmat_wf|]. intros k j _ _. rewrite E, map_map. unfold Zm. rewrite zmat_ent.
  apply total_zero. intros r Hr. apply in_seq in Hr. rewrite H by lia. apply zmat_ent.
Qed.

Lemma pass_hst p inds of_domain C A D hs : (1 <= D)%nat ->
  (forall r, (r < D)%nat -> wf n NT (C r)) -> agc_inv D A ->
  (forall r, (r < D)%nat -> of_domain (Z.of_nat r) <> [] /\
     forall k, In k (of_domain (Z.of_nat r)) -> 0 <= k < Z.of_nat n /\ vget inds k = Ok k) ->
  Forall2 (loose C A) (seq 0 D) hs ->
  exists M hs' A', M = msum (map (fun r => put (C r) (of_domain (Z.of_nat r)) (tr p)) (seq 0 D)) /\ wf n NT M /\
    pass has resample seismic raw rec agc norm3 fmt base hilbert sumAGC nos p of_domain inds hs
    = Ok (hs', if has M then [((base ++ suffix hilbert p) ++ "." ++ component seismic c, fmt, map resample M)%string] else []) /\
    agc_inv D A' /\ Forall2 (loose (fun r => if Nat.eqb r 0 then Zm else M) A') (seq 0 D) hs'.
Proof.
  intros HD HC [HA HA0] Hd HF.
  set (C1 := fun r => put (C r) (of_domain (Z.of_nat r)) (tr p)). set (A1 := fun r => new_agc p (A r) (of_domain (Z.of_nat r))).
  destruct (domains_hst p inds of_domain C A D 0 hs) as (hs1 & E1 & F1);
    [intros; split; [apply HC|apply HA]; lia|intros; apply Hd; lia|exact HF|].
  fold C1 in F1. fold A1 in F1.
  assert (K : forall r, (r < D)%nat -> forall k, In k (of_domain (Z.of_nat r)) -> 0 <= k < Z.of_nat n)
    by (intros r Hr k Hk; apply (Hd r Hr), Hk).
  assert (W1 : forall r, (r < D)%nat -> wf n NT (C1 r)).
  { intros r Hr. apply put_wf; [apply HC, Hr|]. intros k Hk. apply Htr, (K r Hr), Hk. }
  assert (W2 : forall r, (r < D)%nat -> wf n NT (A1 r)).
  { intros r Hr. apply new_agc_wf; [apply HA, Hr|]. apply K, Hr. }
  assert (S1 : forall r, (r < D)%nat -> has (C1 r) = true).
  { intros r Hr. apply has_put; [apply K, Hr|apply HC, Hr|apply (Hd r Hr)|]. intros k Hk. apply Htr, (K r Hr), Hk. }
  destruct (sum_domains_hst false C1 A1 D hs1 HD F1 S1) as (hs2 & E2 & F2). cbn iota in F2.
  set (M := msum (map C1 (seq 0 D))) in *.
  assert (WM : wf n NT M).
  { refine (proj1 (msum_spec n NT (map C1 (seq 0 D)) _ _)); [destruct D; [lia|discriminate]|].
    intros x Hx. apply in_map_iff in Hx. destruct Hx as (r & <- & Hr). apply in_seq in Hr. apply W1. lia. }
  assert (T : exists hs3 A3, (if sumAGC then sum_domains has true hs2 else Ok hs2) = Ok hs3 /\
     Forall2 (tight (fun _ => M) A3) (seq 0 D) hs3 /\ agc_inv D A3).
  { assert (I1 : agc_inv D A1).
    { split; [exact W2|]. intros En r Hr. unfold A1, new_agc. rewrite En. apply HA0; assumption. }
    destruct sumAGC; [|exists hs2, A1; split; [reflexivity|split; [exact F2|exact I1]]].
    assert (U : (forall r, (r < D)%nat -> has (A1 r) = true) \/ (forall r, (r < D)%nat -> has (A1 r) = false)).
    { destruct norm3 eqn:En.
      - left. intros r Hr. unfold A1, new_agc. rewrite En. apply has_put; [apply K, Hr|apply HA, Hr|apply (Hd r Hr)|].
        intros k Hk. apply Hag, (K r Hr), Hk.
      - destruct (has Zm) eqn:Ez; [left|right]; intros r Hr; rewrite (proj2 I1 En r Hr); exact Ez. }
    destruct U as [U|U].
    - destruct (sum_domains_hst true (fun _ => M) A1 D hs2 HD F2 U) as (hs3 & E3 & F3). cbn iota in F3.
      exists hs3, (fun _ => msum (map A1 (seq 0 D))). split; [exact E3|]. split; [exact F3|]. split.
      + intros _ _. refine (proj1 (msum_spec n NT (map A1 (seq 0 D)) _ _)); [destruct D; [lia|discriminate]|].
        intros x Hx. apply in_map_iff in Hx. destruct Hx as (r & <- & Hr). apply in_seq in Hr. apply W2. lia.
      + intros En _ _. apply sum_Zm; [exact HD|]. apply (proj2 I1 En).
    - exists hs2, A1. split; [apply (sum_domains_none true (fun _ => M) A1 D); assumption|]. split; [exact F2|exact I1]. }
  destruct T as (hs3 & A3 & E3 & F3 & I3).
  destruct D as [|D]; [lia|]. cbn [seq] in F3. inversion F3 as [|r0 h0 rs hs0 G0 G1]; subst.
  destruct G0 as (x & d & a & i & ->).
  exists M, (hst M (A3 0%nat) (zmat n NT) (zmat n NT) i :: hs0), (fun r => if Nat.eqb r 0 then Zm else A3 r).
  split; [reflexivity|]. split; [exact WM|]. split; [|split; [split|]].
  - unfold pass. change 0 with (Z.of_nat 0) at 1. rewrite E1. cbn [bind]. rewrite E2. cbn [bind]. rewrite E3. cbn [bind].
    rewrite assignCOP_hst. rewrite (zero_of_wf n NT M WM), (zero_of_wf n NT (A3 0%nat)) by (apply I3; lia).
    rewrite write_prof_hst by assumption. cbn [bind app]. reflexivity.
  - intros r Hr. destruct (Nat.eqb r 0); [apply zmat_wf|]. apply I3. exact Hr.
  - intros En r Hr. destruct (Nat.eqb r 0); [reflexivity|]. apply (proj2 I3 En r Hr).
  - cbn [seq]. constructor; [exists M, (A3 0%nat), i; reflexivity|].
    assert (P : forall r, In r (seq 1 D) -> r <> 0%nat) by (intros r Hr; apply in_seq in Hr; lia).
    clear - G1 P. induction G1 as [|r h rs hs (x & d & a & i & ->) H IH]; constructor.
    + exists (x :: d), a, i. rewrite (proj2 (Nat.eqb_neq r 0)) by (apply P; left; reflexivity). reflexivity.
    + apply IH. intros r' Hr. apply P. right. exact Hr.
Qed.
End Handlers.

(** ** All rounds *)
Lemma zseq_len s m : length (zseq s m) = m.
Proof. revert s. induction m as [|m IH]; intros s; cbn; auto. Qed.
Lemma zseq_nth s m i d : (i < m)%nat -> nth i (zseq s m) d = s + Z.of_nat i.
Proof.
  revert s i. induction m as [|m IH]; intros s i H; [lia|]. destruct i as [|i]; cbn [zseq nth]; [lia|]. rewrite IH by lia. lia.
Qed.
Lemma zseq_in s m k : In k (zseq s m) <-> s <= k < s + Z.of_nat m.
Proof.
  revert s. induction m as [|m IH]; intros s; cbn [zseq In]; [lia|]. rewrite IH. lia.
Qed.
Lemma block_even D B r : (1 <= D)%nat -> 0 <= r < Z.of_nat D ->
  block_lb (Z.of_nat (D * B)) (Z.of_nat D) r = r * Z.of_nat B /\ block_ub (Z.of_nat (D * B)) (Z.of_nat D) r = (r + 1) * Z.of_nat B.
Proof.
  intros HD Hr. assert (E : block_size (Z.of_nat (D * B)) (Z.of_nat D) = Z.of_nat B).
  { unfold block_size. symmetry. apply (Z.div_unique _ _ _ (Z.of_nat D - 1)); lia. }
  unfold block_lb, block_ub. rewrite E. nia.
Qed.
Definition mine (n D : nat) (r : Z) : list Z :=
  zseq (block_lb (Z.of_nat n) (Z.of_nat D) r) (Z.to_nat (block_ub (Z.of_nat n) (Z.of_nat D) r - block_lb (Z.of_nat n) (Z.of_nat D) r)).
Lemma mine_in D B r k : (1 <= D)%nat -> (r < D)%nat -> In k (mine (D * B) D (Z.of_nat r)) <-> Z.of_nat (r * B) <= k < Z.of_nat (r * B + B).
Proof.
  intros HD Hr. unfold mine. rewrite zseq_in. destruct (block_even D B (Z.of_nat r)) as [-> ->]; try lia; nia.
Qed.
Lemma mine_mem D B r k : (1 <= D)%nat -> (1 <= B)%nat -> (r < D)%nat -> (k < D * B)%nat ->
  existsb (fun k' => Nat.eqb k (Z.to_nat k')) (mine (D * B) D (Z.of_nat r)) = Nat.eqb r (k / B).
Proof.
  intros HD HB Hr Hk. apply Bool.eq_true_iff_eq. rewrite existsb_exists, Nat.eqb_eq. split.
  - intros (k' & I & E). apply mine_in in I; [|assumption..]. apply Nat.eqb_eq in E.
    apply (Nat.div_unique k B r (k - r * B)); nia.
  - intros ->. exists (Z.of_nat k). split; [|apply Nat.eqb_eq; lia]. apply mine_in; [assumption..|].
    pose proof (Nat.div_mod k B ltac:(lia)). pose proof (Nat.mod_upper_bound k B ltac:(lia)). nia.
Qed.
Lemma owner D B k : (1 <= B)%nat -> (k < D * B)%nat -> (k / B < D)%nat.
Proof. intros. apply Nat.div_lt_upper_bound; lia. Qed.
Lemma put_ent D B C f r k j : (1 <= D)%nat -> (1 <= B)%nat -> (r < D)%nat -> (k < D * B)%nat -> length C = (D * B)%nat ->
  ent (put C (mine (D * B) D (Z.of_nat r)) f) k j = if Nat.eqb r (k / B) then sample (f (Z.of_nat k)) j else ent C k j.
Proof.
  intros HD HB Hr Hk L. unfold ent. rewrite (put_nth (D * B)).
  - rewrite mine_mem by assumption. destruct (Nat.eqb r (k / B)); reflexivity.
  - exact L.
  - intros k' I. apply mine_in in I; [|assumption..]. nia.
Qed.

Lemma str_app_nil (s : string) : (s ++ "")%string = s.
Proof. induction s as [|a s IH]; cbn; [reflexivity|f_equal; exact IH]. Qed.
Lemma str_app_assoc (a b d : string) : ((a ++ b) ++ d)%string = (a ++ b ++ d)%string.
Proof. induction a as [|x a IH]; cbn; [reflexivity|f_equal; exact IH]. Qed.

(** The traces as a matrix. *)
Definition profile (n : nat) (f : Z -> row) : mat := map f (zseq 0 n).
Lemma profile_wf n NT f : (forall k, 0 <= k < Z.of_nat n -> length (f k) = NT) -> wf n NT (profile n f).
Proof.
  intros H. split; [unfold profile; rewrite map_length; apply zseq_len|]. intros r Hr. apply in_map_iff in Hr.
  destruct Hr as (k & <- & Hk). apply zseq_in in Hk. apply H. lia.
Qed.
Lemma profile_ent n f k j : (k < n)%nat -> ent (profile n f) k j = sample (f (Z.of_nat k)) j.
Proof.
  intros H. unfold ent, profile, sample. rewrite (nth_indep _ [] (f 0)) by (rewrite map_length, zseq_len; exact H).
  rewrite map_nth, zseq_nth by exact H. rewrite Z.add_0_l. reflexivity.
Qed.

Lemma plus_times_sample NT t w s j : (j < NT)%nat -> sample (plus_times NT t w s) j = (sample t j + w * sample s j)%R.
Proof.
  intros H. unfold sample at 1, plus_times. set (g := fun j => _). 
  rewrite (nth_indep _ 0%R (g 0%nat)) by (rewrite map_length, seq_length; exact H). rewrite map_nth, seq_nth by exact H. reflexivity.
Qed.

Lemma first_sum D B NT (f : Z -> row) : (1 <= D)%nat -> (1 <= B)%nat ->
  (forall k, 0 <= k < Z.of_nat (D * B) -> length (f k) = NT) ->
  msum (map (fun r => put (zmat (D * B) NT) (mine (D * B) D (Z.of_nat r)) f) (seq 0 D)) = profile (D * B) f.
Proof.
  intros HD HB Hf. set (g := fun r => _).
  assert (W : forall r, (r < D)%nat -> wf (D * B) NT (g r)).
  { intros r Hr. apply put_wf; [apply zmat_wf|]. intros k I. apply mine_in in I; [|assumption..]. apply Hf. nia. }
  destruct (msum_spec (D * B) NT (map g (seq 0 D))) as [W' E]; [destruct D; [lia|discriminate]| |].
  { intros x I. apply in_map_iff in I. destruct I as (r & <- & I). apply in_seq in I. apply W. lia. }
  apply (mat_eq (D * B) NT); [exact W'|apply profile_wf, Hf|]. intros k j Hk Hj. rewrite E, map_map, profile_ent by exact Hk.
  rewrite (sum_special _ D (k / B) (sample (f (Z.of_nat k)) j) 0%R).
  - ring.
  - apply owner; assumption.
  - unfold g. rewrite put_ent by first [assumption|apply owner; assumption|apply zmat_wf]. rewrite Nat.eqb_refl. reflexivity.
  - intros r Hr Hne. unfold g. rewrite put_ent by (try assumption; apply zmat_wf). rewrite (proj2 (Nat.eqb_neq _ _) Hne). apply zmat_ent.
Qed.
Lemma second_sum D B NT (f g : Z -> row) : (1 <= D)%nat -> (1 <= B)%nat ->
  (forall k, 0 <= k < Z.of_nat (D * B) -> length (f k) = NT) -> (forall k, 0 <= k < Z.of_nat (D * B) -> length (g k) = NT) ->
  msum (map (fun r => put (if Nat.eqb r 0 then zmat (D * B) NT else profile (D * B) f) (mine (D * B) D (Z.of_nat r)) g) (seq 0 D))
  = profile (D * B) (fun k => plus_times NT (g k) (INR (if k <? Z.of_nat B then D - 1 else D - 2)) (f k)).
Proof.
  intros HD HB Hf Hg. set (h := fun r => put _ _ _).
  assert (W0 : forall r, wf (D * B) NT (if Nat.eqb r 0 then zmat (D * B) NT else profile (D * B) f)).
  { intros r. destruct (Nat.eqb r 0); [apply zmat_wf|apply profile_wf, Hf]. }
  assert (W : forall r, (r < D)%nat -> wf (D * B) NT (h r)).
  { intros r Hr. apply put_wf; [apply W0|]. intros k I. apply mine_in in I; [|assumption..]. apply Hg. nia. }
  destruct (msum_spec (D * B) NT (map h (seq 0 D))) as [W' E]; [destruct D; [lia|discriminate]| |].
  { intros x I. apply in_map_iff in I. destruct I as (r & <- & I). apply in_seq in I. apply W. lia. }
  apply (mat_eq (D * B) NT); [exact W'| |].
  { apply profile_wf. intros. unfold plus_times. rewrite map_length. apply seq_length. }
  intros k j Hk Hj. rewrite E, map_map, profile_ent by exact Hk. rewrite plus_times_sample by exact Hj.
  assert (Hh : forall r, (r < D)%nat -> ent (h r) k j = if Nat.eqb r (k / B) then sample (g (Z.of_nat k)) j
                else if Nat.eqb r 0 then 0%R else sample (f (Z.of_nat k)) j).
  { intros r Hr. unfold h. rewrite put_ent by (try assumption; apply W0). destruct (Nat.eqb r (k / B)); [reflexivity|].
    destruct (Nat.eqb r 0); [apply zmat_ent|apply profile_ent, Hk]. }
  pose proof (owner D B k HB Hk) as Ho.
  destruct (Z.of_nat k <? Z.of_nat B) eqn:Ek.
  - assert (E0 : (k / B = 0)%nat) by (apply Nat.div_small; lia). rewrite E0 in *.
    apply (sum_special _ D 0); [exact Ho|rewrite Hh by exact Ho; reflexivity|].
    intros r Hr Hne. rewrite Hh by exact Hr. rewrite (proj2 (Nat.eqb_neq _ _) Hne). reflexivity.
  - assert (E0 : (0 < k / B)%nat) by (apply Nat.div_str_pos; lia).
    apply (sum_special2 _ D (k / B)); [lia| | |].
    + rewrite Hh by lia. rewrite (proj2 (Nat.eqb_neq 0 (k / B))) by lia. reflexivity.
    + rewrite Hh by exact Ho. rewrite Nat.eqb_refl. reflexivity.
    + intros r Hr Hne H0. rewrite Hh by exact Hr. rewrite (proj2 (Nat.eqb_neq _ _) Hne), (proj2 (Nat.eqb_neq _ _) H0). reflexivity.
Qed.

Lemma has_profile has n NT f : counts has -> (1 <= n)%nat -> (forall k, 0 <= k < Z.of_nat n -> trace NT (f k)) -> has (profile n f) = true.
Proof.
  intros H Hn Hf. destruct (Hf 0 ltac:(lia)) as [_ (x & Hx & Hz)]. apply (proj2 H). exists (f 0), x.
  repeat split; try assumption. apply in_map_iff. exists 0. split; [reflexivity|]. apply zseq_in. lia.
Qed.
