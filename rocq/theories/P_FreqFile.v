(** C178: encoding, selection of the frequencies and their file together. *)
From Coq Require Import Sorted Permutation.
From Verif Require Import Base M_Grid M_Acq M_Freq M_FreqFile S_Acq S_Freq L_AcqFile L_Acq L_Acq2 L_Freq L_Freq2.
From Verif Require P_Acq P_Freq.
Open Scope Z_scope.

Definition number (dom k : Z) : Z := dom * 10000 + 1 + k.

Lemma super_numbers {F} neg (l l' : list (source F)) dom cap : supershots neg l l' dom cap -> 0 <= dom -> forall s, In s l' ->
  exists k, 0 <= k < dom /\ Z.abs (sourceNo s) = number dom k.
Proof.
  intros [H _] Hd s Hs. induction H as [|a b l l' (_ & k & Hk & E) _ IH]; [destruct Hs|].
  destruct Hs as [->|Hs]; [|apply IH; exact Hs]. exists k. split; [exact Hk|]. unfold number. rewrite E. lia.
Qed.
Lemma filter_none {A} (f : A -> bool) l : (forall x, In x l -> f x = false) -> filter f l = [].
Proof.
  induction l as [|a l IH]; intros H; [reflexivity|]. cbn. rewrite (H a (or_introl eq_refl)).
  apply IH. intros x Hx. apply H. right. exact Hx.
Qed.
Lemma f2_length {A B} (R : A -> B -> Prop) l l' : Forall2 R l l' -> List.length l = List.length l'.
Proof. induction 1; cbn; congruence. Qed.
Lemma super_members {F} neg (l l' : list (source F)) dom cap : supershots neg l l' dom cap -> 0 <= dom -> 0 <= cap ->
  forall no, Z.of_nat (members l' no) <= cap.
Proof.
  intros H Hd Hc no. destruct (Z_lt_dec no (number dom 0)) as [A|A]; [|destruct (Z_lt_dec no (number dom dom)) as [B|B]].
  - unfold members. rewrite filter_none; [cbn; lia|]. intros s Hs.
    destruct (super_numbers _ _ _ _ _ H Hd s Hs) as (k & Hk & E). apply Z.eqb_neq. unfold number in *. lia.
  - destruct H as [_ H]. specialize (H (no - number dom 0)). unfold number, occupancy in H.
    replace (dom * 10000 + 1 + (no - (dom * 10000 + 1 + 0))) with no in H by lia. apply H. unfold number in *. lia.
  - unfold members. rewrite filter_none; [cbn; lia|]. intros s Hs.
    destruct (super_numbers _ _ _ _ _ H Hd s Hs) as (k & Hk & E). apply Z.eqb_neq. unfold number in *. lia.
Qed.
Lemma super_unique {F} neg (l l' : list (source F)) dom cap : supershots neg l l' dom cap -> 1 <= dom ->
  none_empty l' dom -> exists nos, calcuniqueShotNo l' = Ok nos /\
    Permutation nos (map (fun k => number dom (Z.of_nat k)) (seq 0 (Z.to_nat dom))).
Proof.
  intros H Hd Hn.
  assert (Occ : forall k, 0 <= k < dom -> exists s, In s l' /\ Z.abs (sourceNo s) = number dom k).
  { intros k Hk. specialize (Hn k Hk). unfold occupancy in Hn.
    destruct (filter (fun s => Z.abs (sourceNo s) =? dom * 10000 + 1 + k) l') as [|s r] eqn:E; [cbn in Hn; lia|].
    assert (K : In s (s :: r)) by (left; reflexivity). rewrite <- E in K. apply filter_In in K. destruct K as [K1 K2].
    exists s. split; [exact K1|]. apply Z.eqb_eq in K2. exact K2. }
  assert (Hl : l' <> []). { destruct (Occ 0 ltac:(lia)) as (s & Hs & _). intros ->. destruct Hs. }
  destruct (unique_lem l' Hl) as (nos & En & NN & Hin & _). exists nos. split; [exact En|].
  apply NoDup_Permutation; [exact NN| |].
  { apply FinFun.Injective_map_NoDup; [|apply seq_NoDup]. intros i j E. unfold number in E. lia. }
  intros no. rewrite Hin, !in_map_iff. split.
  - intros (s & <- & Hs). destruct (super_numbers _ _ _ _ _ H ltac:(lia) s Hs) as (k & Hk & E).
    exists (Z.to_nat k). split; [rewrite Z2Nat.id by lia; symmetry; exact E|]. apply in_seq. lia.
  - intros (k & <- & Hk). apply in_seq in Hk. destruct (Occ (Z.of_nat k) ltac:(lia)) as (s & Hs & E).
    exists s. split; [exact E|exact Hs].
Qed.

(** All that a frequency-encoded list of sources must satisfy: it is [l] but for the signals, every source is a sine
    with a selectable frequency, no two sources of a supershot share one. *)
Definition well_encoded {F} (fc12 : list F) (l l' : list (source F)) : Prop :=
  Forall2 same_but_signal l l' /\ Forall (fun s => sine s /\ In (fc s) fc12) l' /\
  forall i j s t, i <> j -> nth_error l' i = Some s -> nth_error l' j = Some t ->
    Z.abs (sourceNo s) = Z.abs (sourceNo t) -> fc s <> fc t.

Lemma after_encode F (neg : F -> F) rnd (zero : F) fc12 l le dom cap p :
  supershots neg l le dom cap -> none_empty le dom -> 1 <= dom -> capacity (Z.of_nat (List.length l)) dom cap ->
  (forall q, 0 <= rnd q) -> NoDup fc12 -> cap <= Z.of_nat (List.length fc12) -> fair rnd (Z.of_nat (List.length fc12)) ->
  exists fuel l' fcs, selectFreq rnd fuel zero fc12 le dom p = Ok (l', fcs) /\ well_encoded fc12 le l'.
Proof.
  intros H Hn Hd Hcap Hr ND Hc Hf.
  destruct (super_unique _ _ _ _ _ H Hd Hn) as (nos & En & Pn).
  assert (Ln : Z.of_nat (List.length nos) = dom).
  { apply Permutation_length in Pn. rewrite map_length, seq_length in Pn. lia. }
  assert (Ll : List.length le = List.length l) by (destruct H as [H _]; symmetry; eapply f2_length; exact H).
  assert (Hcap0 : 0 <= cap). { destruct Hcap as [B1 _]. nia. }
  destruct (P_Freq.C177_terminates F rnd zero fc12 le dom cap nos p Hr ND Hd ltac:(rewrite Ll; exact Hcap) En ltac:(lia)
    (super_members _ _ _ _ _ H ltac:(lia) Hcap0) Hc Hf) as (fuel & (l' & fcs) & E).
  exists fuel, l', fcs. split; [exact E|].
  destruct (P_Freq.C177_select F rnd fuel zero fc12 le dom p l' fcs Hr ND Hd E) as (nos' & En' & _ & S1 & S2 & S3 & S4).
  rewrite En in En'. inversion En'; subst nos'. rewrite firstn_all2 in * by lia.
  assert (All : forall i s, nth_error l' i = Some s -> In (Z.abs (sourceNo s)) nos).
  { intros i s Hs. destruct (f2_nth _ _ _ _ S1 Hs) as (s0 & Hs0 & (No & _)). rewrite No.
    destruct (unique_lem le) as (nos' & E' & _ & Hin & _); [intros ->; destruct i; discriminate|].
    rewrite En in E'. inversion E'; subst nos'. apply Hin. apply in_map_iff. exists s0. split; [reflexivity|].
    eapply nth_error_In; exact Hs0. }
  split; [exact S1|]. split.
  - apply Forall_forall. intros s Hs. apply In_nth_error in Hs. destruct Hs as [i Hi]. apply (S2 i s Hi (All i s Hi)).
  - intros i j s t Hij Hs Ht Est. apply (S4 i j s t Hij Hs Ht Est (All i s Hs)).
Qed.

(** useSourceEncode 1 (random) and 2 (cyclic), with at least as many shots as domains: the whole encoding ends well. *)
Theorem C178_mode1 : forall F (neg : F -> F) rnd rnd2 fuel (zero : F) fc12 l le dom cap p,
  (forall q, 0 <= rnd q) -> (forall q, 0 <= rnd2 q) -> 1 <= dom <= Z.of_nat (List.length l) ->
  capacity (Z.of_nat (List.length l)) dom cap -> NoDup fc12 -> cap <= Z.of_nat (List.length fc12) ->
  fair rnd2 (Z.of_nat (List.length fc12)) -> encode neg rnd fuel 1 l dom = Ok le ->
  exists fuel2 l' fcs, selectFreq rnd2 fuel2 zero fc12 le dom p = Ok (l', fcs) /\ well_encoded fc12 le l'.
Proof.
  intros F neg rnd rnd2 fuel zero fc12 l le dom cap p Hr Hr2 Hd Hcap ND Hc Hf E.
  destruct (P_Acq.C34_mode1_partial F neg rnd fuel l dom cap le Hr ltac:(lia) Hcap E) as [A B].
  apply (after_encode F neg rnd2 zero fc12 l le dom cap p A); auto; try lia. apply B. lia.
Qed.
Print Assumptions C178_mode1.
Theorem C178_mode2 : forall F (neg : F -> F) rnd rnd2 fuel (zero : F) fc12 l dom cap p,
  (forall q, 0 <= rnd2 q) -> 1 <= dom <= Z.of_nat (List.length l) ->
  capacity (Z.of_nat (List.length l)) dom cap -> NoDup fc12 -> cap <= Z.of_nat (List.length fc12) ->
  fair rnd2 (Z.of_nat (List.length fc12)) ->
  exists le fuel2 l' fcs, encode neg rnd fuel 2 l dom = Ok le /\
    selectFreq rnd2 fuel2 zero fc12 le dom p = Ok (l', fcs) /\ well_encoded fc12 le l'.
Proof.
  intros F neg rnd rnd2 fuel zero fc12 l dom cap p Hr2 Hd Hcap ND Hc Hf.
  destruct (P_Acq.C34_mode2 F neg rnd fuel l dom cap ltac:(lia) Hcap) as (le & E & A & B).
  destruct (after_encode F neg rnd2 zero fc12 l le dom cap p A) as (f2 & l' & fcs & K); auto; try lia.
  { apply B. lia. }
  exists le, f2, l', fcs. tauto.
Qed.
Print Assumptions C178_mode2.

Lemma short_unique {F} neg (l l' : list (source F)) dom cap nos : supershots neg l l' dom cap -> 1 <= dom ->
  calcuniqueShotNo l' = Ok nos -> ~ none_empty l' dom -> Z.of_nat (List.length nos) < dom.
Proof.
  intros H Hd En Hn. destruct (Z_lt_dec (Z.of_nat (List.length nos)) dom) as [A|A]; [exact A|]. exfalso. apply Hn.
  assert (Hl : l' <> []) by (intros ->; discriminate).
  destruct (unique_lem l' Hl) as (nos' & E' & NN & Hin & _). rewrite En in E'. inversion E'; subst nos'.
  set (full := map (fun k => number dom (Z.of_nat k)) (seq 0 (Z.to_nat dom))).
  assert (Sub : incl nos full).
  { intros no Hno. apply Hin in Hno. apply in_map_iff in Hno. destruct Hno as (s & <- & Hs).
    destruct (super_numbers _ _ _ _ _ H ltac:(lia) s Hs) as (k & Hk & E). apply in_map_iff.
    exists (Z.to_nat k). split; [rewrite Z2Nat.id by lia; symmetry; exact E|]. apply in_seq. lia. }
  assert (Sup : incl full nos).
  { apply NoDup_length_incl; [exact NN| |exact Sub]. unfold full. rewrite map_length, seq_length. lia. }
  intros k Hk. assert (K : In (number dom k) nos).
  { apply Sup. apply in_map_iff. exists (Z.to_nat k). split; [rewrite Z2Nat.id by lia; reflexivity|]. apply in_seq. lia. }
  apply Hin in K. apply in_map_iff in K. destruct K as (s & Es & Hs). unfold occupancy.
  assert (M : In s (filter (fun s => Z.abs (sourceNo s) =? dom * 10000 + 1 + k) l')).
  { apply filter_In. split; [exact Hs|]. apply Z.eqb_eq. exact Es. }
  destruct (filter _ l'); [destruct M|cbn [List.length]; lia].
Qed.

(** useSourceEncode 3 (blocks): it ends well exactly when the blocks reach the last domain; otherwise no number of
    draws gives a result, and the file of the supershots is not defined either. *)
Theorem C178_mode3 : forall F (neg : F -> F) rnd rnd2 fuel (zero : F) fc12 l dom cap p,
  (forall q, 0 <= rnd2 q) -> 1 <= dom -> l <> [] ->
  capacity (Z.of_nat (List.length l)) dom cap -> NoDup fc12 -> cap <= Z.of_nat (List.length fc12) ->
  fair rnd2 (Z.of_nat (List.length fc12)) ->
  exists le, encode neg rnd fuel 3 l dom = Ok le /\
    ((dom - 1) * cap < Z.of_nat (List.length l) ->
       exists fuel2 l' fcs, selectFreq rnd2 fuel2 zero fc12 le dom p = Ok (l', fcs) /\ well_encoded fc12 le l') /\
    (Z.of_nat (List.length l) <= (dom - 1) * cap ->
       (forall fuel2 out, selectFreq rnd2 fuel2 zero fc12 le dom p <> Ok out) /\
       writeSourceEncode le (Z.of_nat (List.length le)) dom = UB).
Proof.
  intros F neg rnd rnd2 fuel zero fc12 l dom cap p Hr2 Hd Hl Hcap ND Hc Hf.
  destruct (P_Acq.C34_mode3_partial F neg rnd fuel l dom cap Hd Hl Hcap) as (le & E & A & B).
  exists le. split; [exact E|]. split.
  - intros K. apply (after_encode F neg rnd2 zero fc12 l le dom cap p A); auto. apply B. exact K.
  - intros K. assert (Hle : le <> []).
    { intros ->. destruct A as [A _]. inversion A. subst. contradiction. }
    destruct (unique_lem le Hle) as (nos & En & _).
    assert (S : Z.of_nat (List.length nos) < dom).
    { apply (short_unique _ _ _ _ _ _ A Hd En). intros N. apply B in N. lia. }
    split.
    + intros fuel2 (l' & fcs) R.
      destruct (P_Freq.C177_select F rnd2 fuel2 zero fc12 le dom p l' fcs Hr2 ND Hd R) as (nos' & En' & L & _).
      rewrite En in En'. inversion En'; subst nos'. lia.
    + apply (P_Freq.C177_listing F le nos dom En ltac:(lia)). exact S.
Qed.
Print Assumptions C178_mode3.

Lemma fc_lines_ok {F} nos (l : list (source F)) : forall n k, 0 <= k -> k + Z.of_nat n <= Z.of_nat (List.length nos) ->
  fc_lines nos l n k = Ok (map (fun no => (no, map fc (filter (fun s => Z.abs (sourceNo s) =? no) l)))
                            (firstn n (skipn (Z.to_nat k) nos))).
Proof.
  induction n as [|n IH]; intros k Hk Hl; [reflexivity|]. cbn [fc_lines].
  destruct (skipn (Z.to_nat k) nos) as [|no r] eqn:E.
  { apply (f_equal (@List.length Z)) in E. rewrite skipn_length in E. cbn in E. lia. }
  assert (N : vget nos k = Ok no).
  { rewrite (vget_some nos k 0) by lia. f_equal. rewrite <- (firstn_skipn (Z.to_nat k) nos), E.
    rewrite app_nth2; rewrite firstn_length; [|lia]. replace (_ - _)%nat with 0%nat by lia. reflexivity. }
  rewrite N. cbn [bind]. rewrite IH by lia. cbn [bind firstn map].
  replace (skipn (Z.to_nat (k + 1)) nos) with r; [reflexivity|].
  replace (Z.to_nat (k + 1)) with (1 + Z.to_nat k)%nat by lia. exact (skipn_tail _ _ _ _ E).
Qed.

(** The file of the frequencies after a selection: one line for each domain, with the frequencies of the sources of
    that supershot, in their order, and nothing of another supershot. *)
Theorem C178_file : forall F rnd fuel (zero : F) fc12 all le dom p l' fcs nos,
  (forall q, 0 <= rnd q) -> NoDup fc12 -> 1 <= dom -> selectFreq rnd fuel zero fc12 le dom p = Ok (l', fcs) ->
  calcuniqueShotNo l' = Ok nos ->
  exists out, writeSourceFC true all l' (Z.of_nat (List.length l')) dom fcs = Ok out /\
    Z.of_nat (List.length out) = dom /\
    forall k no v, nth_error out k = Some (no, v) -> nth_error nos k = Some no /\
      v = map fc (filter (fun s => Z.abs (sourceNo s) =? no) l') /\
      exists rest, nth_error fcs k = Some (v ++ rest).
Proof.
  intros F rnd fuel zero fc12 all le dom p l' fcs nos Hr ND Hd E En.
  destruct (P_Freq.C177_select F rnd fuel zero fc12 le dom p l' fcs Hr ND Hd E) as (nos' & En' & Ln & S1 & _).
  assert (Hle : le <> []) by (intros ->; discriminate). assert (Hl' : l' <> []) by (intros ->; discriminate).
  assert (nos' = nos).
  { assert (U : calcuniqueShotNo l' = calcuniqueShotNo le).
    { clear - S1. unfold calcuniqueShotNo. destruct S1 as [|a b l l' Hab H]; [reflexivity|]. f_equal.
      rewrite (proj1 Hab). assert (G : Forall2 same_but_signal (a :: l) (b :: l')) by (constructor; assumption).
      revert G. generalize (a :: l) (b :: l') [Z.abs (sourceNo a)]. intros u v acc G. revert acc.
      induction G as [|x y u v Hxy _ IH]; intros acc; [reflexivity|]. cbn [fold_left].
      unfold uniq_step at 2 4. rewrite (proj1 Hxy). apply IH. }
    congruence. }
  subst nos'. set (cap := cceil (Z.of_nat (List.length le)) dom).
  assert (Hcap : capacity (Z.of_nat (List.length le)) dom cap).
  { destruct (cceil_spec (Z.of_nat (List.length le)) dom Hd) as [A1 A2]. unfold capacity, cap. split; nia. }
  destruct (nth_error nos 0) as [no0|] eqn:E0; [|apply nth_error_None in E0; lia].
  destruct (P_Freq.C177_recorded F rnd fuel zero fc12 le dom p l' fcs nos cap 0 no0 Hr ND Hd Hcap E En' ltac:(lia) E0) as (R0 & _ & Lf).
  unfold writeSourceFC. assert (V : exists v, vget fcs 0 = Ok v).
  { exists (nth 0 fcs []). rewrite (vget_some fcs 0 []) by lia. reflexivity. }
  destruct V as [v0 ->]. cbn [bind]. rewrite En. cbn [bind]. rewrite Z.eqb_refl. cbn [negb].
  rewrite fc_lines_ok by lia. cbn [Z.to_nat skipn]. eexists. split; [reflexivity|]. split.
  { rewrite map_length, firstn_length. lia. }
  intros k no v Hk.
  rewrite nth_error_map in Hk. destruct (nth_error (firstn (Z.to_nat dom) nos) k) as [no'|] eqn:Ek; [|discriminate].
  cbn in Hk. injection Hk as I1 I2. subst no' v.
  assert (Lk : (k < Z.to_nat dom)%nat).
  { assert (K : (k < List.length (firstn (Z.to_nat dom) nos))%nat) by (apply nth_error_Some; congruence).
    rewrite firstn_length in K. lia. }
  assert (Hno : nth_error nos k = Some no).
  { rewrite <- (firstn_skipn (Z.to_nat dom) nos), nth_error_app1; [exact Ek|]. rewrite firstn_length. lia. }
  split; [exact Hno|]. split; [reflexivity|].
  destruct (P_Freq.C177_recorded F rnd fuel zero fc12 le dom p l' fcs nos cap k no Hr ND Hd Hcap E En' Lk Hno) as (R & _).
  eexists. exact R.
Qed.
Print Assumptions C178_file.
(** Without an encoding the file has one line: the first source and the list of all frequencies. *)
Theorem C178_file_plain : forall F (s : source F) all l numshots dom fc12 fcs,
  writeSourceFC false (s :: all) l numshots dom (fc12 :: fcs) = Ok [(sourceNo s, fc12)].
Proof. reflexivity. Qed.
Print Assumptions C178_file_plain.

(** Three shots in two domains (compare C177_left_over_refuted: the record of the second supershot has a frequency
    that is not its own, its line in the file has not). *)
Example C178_ex : exists le l' fcs,
  encode Z.opp (fun p => Z.of_nat p) 9 2 [P_Freq.one 1; P_Freq.one 2; P_Freq.one 3] 2 = Ok le /\
  selectFreq (fun p => Z.of_nat p) 9 0 [10; 12; 14] le 2 0 = Ok (l', fcs) /\
  fcs = [[10; 12]; [14; 12]] /\
  writeSourceFC true [] l' 3 2 fcs = Ok [(20001, [10; 12]); (20002, [14])].
Proof. do 3 eexists. repeat split; vm_compute; reflexivity. Qed.
(** The hypotheses of C178_mode1, C178_mode2 and C178_mode3 are met by five shots in three domains with two
    frequencies, and both cases of C178_mode3 occur: three domains are reached, four are not. *)
Example C178_ex_hyp : capacity 5 3 2 /\ capacity 5 4 2 /\ NoDup [10; 12] /\ fair (fun p => Z.of_nat p) 2 /\
  (3 - 1) * 2 < 5 /\ 5 <= (4 - 1) * 2 /\
  exists le, encode Z.opp (fun p => Z.of_nat p) 9 1 (map P_Freq.one [1; 2; 3; 4; 5]) 3 = Ok le /\
    map sourceNo le = [30001; 30002; 30003; 30001; 30002].
Proof.
  split; [unfold capacity; lia|]. split; [unfold capacity; lia|].
  split; [repeat constructor; cbn; intuition lia|]. split.
  { intros r p Hr. exists (2 * p + Z.to_nat r)%nat. split; [lia|].
    replace (Z.of_nat (2 * p + Z.to_nat r)) with (r + Z.of_nat p * 2) by lia.
    rewrite Z.rem_mod_nonneg by lia. rewrite Z.mod_add by lia. apply Z.mod_small. lia. }
  split; [lia|]. split; [lia|]. eexists. split; [vm_compute; reflexivity|]. reflexivity.
Qed.
