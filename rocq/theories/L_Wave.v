(** Lemmas about the wavefield objects. *)
From Coq Require Import Reals String Lra.
From Verif Require Import Base M_Average M_Common M_Model M_ModelEM S_ModelEM L_Acq2 L_AcqFile L_Model L_Model2 L_ModelEM L_ModelEM3 M_Wave S_Wave.
Open Scope string_scope.
Open Scope Z_scope.

Lemma wf_setF w f v g : wf (setF w f v) g = if String.eqb g f then v else wf w g. Proof. reflexivity. Qed.
Lemma wr_setF w f v g : wr (setF w f v) g = wr w g. Proof. reflexivity. Qed.
Lemma wn_setF w f v : wn (setF w f v) = wn w. Proof. reflexivity. Qed.
Lemma wf_setR w f v g : wf (setR w f v) g = wf w g. Proof. reflexivity. Qed.
Lemma wr_setR w f v g : wr (setR w f v) g = if String.eqb g f then v else wr w g. Proof. reflexivity. Qed.
Lemma wn_setR w f v : wn (setR w f v) = wn w. Proof. reflexivity. Qed.

Lemma vget_nth {A} (v : list A) l x : 0 <= l -> (vget v l = Ok x <-> nth_error v (Z.to_nat l) = Some x).
Proof. intros H. unfold vget. destruct (Z.ltb_spec l 0); [lia|]. destruct (nth_error v (Z.to_nat l)); split; congruence. Qed.

Lemma putAt_ok v l x : 0 <= l < Z.of_nat (length v) -> exists r, putAt v l x = Ok r /\ length r = length v /\
  (forall j, nth_error r j = if Nat.eqb j (Z.to_nat l) then Some x else nth_error v j).
Proof.
  intros H. unfold putAt. destruct (Z.leb_spec 0 l); [|lia]. destruct (Z.ltb_spec l (Z.of_nat (length v))); [|lia]. cbn [andb].
  eexists. split; [reflexivity|]. set (n := Z.to_nat l). assert (Hn : (n < length v)%nat) by lia. clearbody n. split.
  - rewrite app_length, firstn_length. cbn [length]. rewrite skipn_length. lia.
  - intros j. destruct (Nat.eqb_spec j n) as [->|D].
    + rewrite nth_error_app2; rewrite firstn_length; [|lia]. replace (n - Nat.min n (length v))%nat with 0%nat by lia. reflexivity.
    + destruct (Nat.ltb_spec j n).
      * rewrite nth_error_app1 by (rewrite firstn_length; lia). clear D.
        rewrite <- (firstn_skipn n v) at 2. rewrite nth_error_app1 by (rewrite firstn_length; lia). reflexivity.
      * rewrite nth_error_app2; rewrite firstn_length; [|lia]. replace (j - Nat.min n (length v))%nat with (S (j - S n)) by lia. cbn [nth_error].
        rewrite <- (firstn_skipn (S n) v) at 2. rewrite nth_error_app2; rewrite firstn_length; [|lia]. f_equal. lia.
Qed.

(** One pass over the vectors. *)
Lemma each_onF g fs : forall w, NoDup fs -> (forall f, In f fs -> exists y, g f (wf w f) = Ok y) ->
  exists u, each (onF g) fs w = Ok u /\ (forall f, In f fs -> g f (wf w f) = Ok (wf u f)) /\ (forall f, ~ In f fs -> wf u f = wf w f) /\
    wr u = wr w /\ wn u = wn w.
Proof.
  induction fs as [|f fs IH]; intros w ND H.
  - exists w. cbn [each]. repeat split; auto. intros f [].
  - inversion ND as [|? ? NI ND']; subst. destruct (H f (or_introl eq_refl)) as (y&E).
    destruct (IH (setF w f y)) as (u&Eu&Hin&Hout&Hr&Hn); [exact ND'| |].
    { intros g' I. rewrite wf_setF. destruct (String.eqb_spec g' f) as [Eq|D]; [subst g'; contradiction|]. apply H. now right. }
    exists u. cbn [each]. unfold onF at 1. rewrite E. cbn [bind]. rewrite Eu.
    assert (Wf : wf u f = y) by (rewrite Hout by exact NI; rewrite wf_setF, String.eqb_refl; reflexivity).
    repeat split.
    + intros g' [<-|I]; [rewrite Wf; exact E|]. specialize (Hin g' I). rewrite wf_setF in Hin. destruct (String.eqb_spec g' f) as [Eq|D]; [subst g'; contradiction|exact Hin].
    + intros g' NI'. rewrite Hout by (intros I; apply NI'; now right). rewrite wf_setF. destruct (String.eqb_spec g' f) as [Eq|D]; [subst g'|reflexivity].
      exfalso. apply NI'. now left.
    + rewrite Hr. reflexivity.
    + rewrite Hn. reflexivity.
Qed.

(** One pass over the memory variables of mechanism [l]. *)
Lemma each_onR h l rs : forall w, 0 <= l -> NoDup rs -> (forall f, In f rs -> exists x y, nth_error (wr w f) (Z.to_nat l) = Some x /\ h f l x = Ok y) ->
  exists u, each (onR h l) rs w = Ok u /\ (forall f, In f rs -> length (wr u f) = length (wr w f)) /\
    (forall f, In f rs -> exists x y, nth_error (wr w f) (Z.to_nat l) = Some x /\ h f l x = Ok y /\ nth_error (wr u f) (Z.to_nat l) = Some y) /\
    (forall f j, j <> Z.to_nat l -> nth_error (wr u f) j = nth_error (wr w f) j) /\
    (forall f, ~ In f rs -> wr u f = wr w f) /\ wf u = wf w /\ wn u = wn w.
Proof.
  induction rs as [|f rs IH]; intros w Hl ND H.
  - exists w. cbn [each]. repeat split; auto; intros f [].
  - inversion ND as [|? ? NI ND']; subst. destruct (H f (or_introl eq_refl)) as (x&y&N&E).
    assert (Lt : 0 <= l < Z.of_nat (length (wr w f))). { split; [exact Hl|]. assert (Z.to_nat l < length (wr w f))%nat by (apply nth_error_Some; congruence). lia. }
    destruct (putAt_ok (wr w f) l y Lt) as (r&Er&Lr&Nr).
    destruct (IH (setR w f r)) as (u&Eu&Hlen&Hin&Hj&Hout&Hf&Hn); [exact Hl|exact ND'| |].
    { intros g' I. rewrite wr_setR. destruct (String.eqb_spec g' f) as [Eq|D]; [subst g'; contradiction|]. apply H. now right. }
    assert (Wf : wr u f = r) by (rewrite Hout by exact NI; rewrite wr_setR, String.eqb_refl; reflexivity).
    exists u. cbn [each]. unfold onR at 1. assert (V : vget (wr w f) l = Ok x) by (apply vget_nth; assumption).
    rewrite V. cbn [bind]. rewrite E. cbn [bind]. rewrite Er. cbn [bind]. rewrite Eu. repeat split.
    + intros g' [<-|I]; [rewrite Wf; exact Lr|]. rewrite Hlen by exact I. rewrite wr_setR. destruct (String.eqb_spec g' f) as [Eq|D]; [subst g'; contradiction|reflexivity].
    + intros g' [<-|I].
      * exists x, y. split; [exact N|]. split; [exact E|]. rewrite Wf, Nr, Nat.eqb_refl. reflexivity.
      * destruct (Hin g' I) as (x'&y'&A&B&C). rewrite wr_setR in A. destruct (String.eqb_spec g' f) as [Eq|D]; [subst g'; contradiction|]. eauto.
    + intros g' j Dj. rewrite Hj by exact Dj. rewrite wr_setR. destruct (String.eqb_spec g' f) as [Eq|D]; [subst g'|reflexivity].
      rewrite Nr. destruct (Nat.eqb_spec j (Z.to_nat l)); [contradiction|reflexivity].
    + intros g' NI'. rewrite Hout by (intros I; apply NI'; now right). rewrite wr_setR. destruct (String.eqb_spec g' f) as [Eq|D]; [subst g'|reflexivity].
      exfalso. apply NI'. now left.
    + rewrite Hf. reflexivity.
    + rewrite Hn. reflexivity.
Qed.

(** The loop over the mechanisms. *)
Lemma each_loop h rs m : forall s w, 0 <= s -> NoDup rs ->
  (forall f l, In f rs -> s <= l < s + Z.of_nat m -> exists x y, nth_error (wr w f) (Z.to_nat l) = Some x /\ h f l x = Ok y) ->
  exists u, each (fun w l => each (onR h l) rs w) (zseq s m) w = Ok u /\ (forall f, In f rs -> length (wr u f) = length (wr w f)) /\
    (forall f l, In f rs -> s <= l < s + Z.of_nat m -> exists x y, nth_error (wr w f) (Z.to_nat l) = Some x /\ h f l x = Ok y /\ nth_error (wr u f) (Z.to_nat l) = Some y) /\
    (forall f j, ~ (s <= Z.of_nat j < s + Z.of_nat m) -> nth_error (wr u f) j = nth_error (wr w f) j) /\
    (forall f, ~ In f rs -> wr u f = wr w f) /\ wf u = wf w /\ wn u = wn w.
Proof.
  induction m as [|m IH]; intros s w Hs ND H.
  - exists w. cbn [zseq each]. repeat split; auto. intros f l _ K. lia.
  - destruct (each_onR h s rs w Hs ND) as (w1&E1&Len1&In1&J1&Out1&F1&N1). { intros f I. apply H; [exact I|lia]. }
    destruct (IH (s + 1) w1) as (u&Eu&Len&Hin&Hj&Hout&Hf&Hn); [lia|exact ND| |].
    { intros f l I K. rewrite J1 by lia. apply H; [exact I|lia]. }
    exists u. cbn [zseq each]. rewrite E1. cbn [bind]. rewrite Eu. repeat split.
    + intros f I. rewrite Len, Len1 by exact I. reflexivity.
    + intros f l I K. destruct (Z.eq_dec l s) as [->|D].
      * destruct (In1 f I) as (x&y&A&B&C). exists x, y. split; [exact A|]. split; [exact B|]. rewrite Hj by lia. exact C.
      * destruct (Hin f l I) as (x&y&A&B&C); [lia|]. rewrite J1 in A by lia. eauto.
    + intros f j K. rewrite Hj by lia. rewrite J1 by lia. reflexivity.
    + intros f NI. rewrite Hout by exact NI. apply Out1, NI.
    + rewrite Hf, F1. reflexivity.
    + rewrite Hn, N1. reflexivity.
Qed.

Lemma both_ok fs rs g h w : NoDup fs -> NoDup rs -> (forall f, In f fs -> exists y, g f (wf w f) = Ok y) ->
  (forall f l, In f rs -> 0 <= l < wn w -> exists x y, nth_error (wr w f) (Z.to_nat l) = Some x /\ h f l x = Ok y) ->
  exists u, both fs rs g h w = Ok u /\ (forall f, In f fs -> g f (wf w f) = Ok (wf u f)) /\
    (forall f, In f rs -> length (wr u f) = length (wr w f)) /\
    (forall f l, In f rs -> 0 <= l < wn w -> exists x y, nth_error (wr w f) (Z.to_nat l) = Some x /\ h f l x = Ok y /\ nth_error (wr u f) (Z.to_nat l) = Some y) /\
    (forall f j, ~ (Z.of_nat j < wn w) -> nth_error (wr u f) j = nth_error (wr w f) j) /\
    same_but fs rs w u.
Proof.
  intros N1 N2 G H. destruct (each_onF g fs w N1 G) as (w1&E1&In1&Out1&R1&K1).
  assert (Hb : forall l, 0 <= l < 0 + Z.of_nat (Z.to_nat (wn w)) <-> 0 <= l < wn w) by lia.
  destruct (each_loop h rs (Z.to_nat (wn w)) 0 w1) as (u&Eu&Len&Hin&Hj&Hout&Hf&Hn); [lia|exact N2| |].
  { intros f l I K. rewrite R1. apply H; [exact I|]. now apply Hb. }
  exists u. unfold both. rewrite E1. cbn [bind]. rewrite K1, Eu. split; [reflexivity|]. rewrite R1 in *. split.
  { intros f I. rewrite Hf. apply In1, I. }
  split; [exact Len|]. split. { intros f l I K. apply Hin; [exact I|]. now apply Hb. }
  split. { intros f j K. apply Hj. lia. }
  split; [|split].
  - intros f NI. rewrite Hf. apply Out1, NI.
  - intros f NI. apply Hout, NI.
  - rewrite Hn, K1. reflexivity.
Qed.

(** Deciding the finite facts about the class tables. *)
Definition inb (f : string) (l : list string) : bool := existsb (String.eqb f) l.
Fixpoint nodupb (l : list string) : bool := match l with [] => true | x :: l => negb (inb x l) && nodupb l end.
Definition subb (a b : list string) : bool := forallb (fun f => inb f b) a.
Lemma inb_in f l : inb f l = true <-> In f l.
Proof. unfold inb. rewrite existsb_exists. split; [intros (x&I&E); apply String.eqb_eq in E; now subst|]. intros I. exists f. split; [exact I|apply String.eqb_refl]. Qed.
Lemma nodupb_ok l : nodupb l = true -> NoDup l.
Proof.
  induction l as [|x l IH]; cbn; [constructor|]. intros H. apply andb_true_iff in H as (A&B). constructor; [|now apply IH].
  intros I. apply inb_in in I. rewrite I in A. discriminate.
Qed.
Lemma subb_ok a b : subb a b = true -> forall f, In f a -> In f b.
Proof. unfold subb. rewrite forallb_forall. intros H f I. apply inb_in. now apply H. Qed.

Definition wkinds : list wkind := [W2Dacoustic; W2Delastic; W2Dsh; W2Dviscoelastic; W2Dviscosh; W3Dacoustic; W3Delastic; W3Dviscoelastic;
  W2Demem; W2Dtmem; W2Dviscoemem; W2Dviscotmem; W3Demem; W3Dviscoemem].
(** A method that is complete: it touches exactly the members and the memory variables, each once. *)
Definition complete (k : wkind) (fs rs : list string) : Prop :=
  NoDup fs /\ NoDup rs /\ (forall f, In f fs <-> In f (members k)) /\ (forall f, In f rs <-> In f (memory k)).
Lemma complete_dec k fs rs : nodupb fs && nodupb rs && subb fs (members k) && subb (members k) fs && subb rs (memory k) && subb (memory k) rs = true -> complete k fs rs.
Proof.
  intros H. repeat (apply andb_true_iff in H as (H&?)). split; [now apply nodupb_ok|]. split; [now apply nodupb_ok|].
  split; intros f; split; apply subb_ok; assumption.
Qed.
Lemma assign_complete k : complete k (dAssign (cls k)) (dAssignR (cls k)). Proof. apply complete_dec. destruct k; vm_compute; reflexivity. Qed.
Lemma minus_complete k : complete k (dMinus (cls k)) (dMinusR (cls k)). Proof. apply complete_dec. destruct k; vm_compute; reflexivity. Qed.
Lemma plus_complete k : complete k (dPlus (cls k)) (dPlusR (cls k)). Proof. apply complete_dec. destruct k; vm_compute; reflexivity. Qed.
Lemma timesS_complete k : complete k (dTimesS (cls k)) (dTimesSR (cls k)). Proof. apply complete_dec. destruct k; vm_compute; reflexivity. Qed.
Lemma timesV_complete k : complete k (dTimesV (cls k)) (dTimesVR (cls k)). Proof. apply complete_dec. destruct k; vm_compute; reflexivity. Qed.
Lemma transform_complete k : complete k (dTransform (cls k)) (dTransformR (cls k)). Proof. apply complete_dec. destruct k; vm_compute; reflexivity. Qed.
Lemma init_complete k : complete k (dInit (cls k)) (dInitR (cls k)). Proof. apply complete_dec. destruct k; vm_compute; reflexivity. Qed.
(** The getters of a class for its own members do not throw. *)
Lemma ref_member k w f : In f (members k) -> ref k w f = Ok (wf w f).
Proof.
  intros I. unfold ref. assert (H : forallb (fun f => negb (existsb (String.eqb f) (dMissing (cls k)))) (members k) = true) by (destruct k; vm_compute; reflexivity).
  rewrite forallb_forall in H. specialize (H f I). destruct (existsb _ _); [discriminate|reflexivity].
Qed.
Lemma refR_memory k w f : In f (memory k) -> refR k w f = Ok (wr w f).
Proof.
  intros I. unfold refR. assert (H : forallb (fun f => negb (existsb (String.eqb f) (dMissing (cls k)))) (memory k) = true) by (destruct k; vm_compute; reflexivity).
  rewrite forallb_forall in H. specialize (H f I). destruct (existsb _ _); [discriminate|reflexivity].
Qed.

Lemma shaped_mem k n L w f l : shaped k n L w -> In f (memory k) -> 0 <= l < L -> exists x, nth_error (wr w f) (Z.to_nat l) = Some x /\ length x = n.
Proof.
  intros (_&H&_) I K. destruct (H f I) as (Len&F). destruct (nth_error (wr w f) (Z.to_nat l)) as [x|] eqn:E.
  - exists x. split; [reflexivity|]. rewrite Forall_forall in F. apply F. eapply nth_error_In; eauto.
  - apply nth_error_None in E. lia.
Qed.
Lemma mem_ne k f : In f (memory k) -> memory k <> []. Proof. intros I E. rewrite E in I. destruct I. Qed.

(** A complete method whose vectors keep their sizes keeps the shape, and its effect is pointwise. *)
Lemma both_shaped k n L fs rs g h w : complete k fs rs -> shaped k n L w -> 0 <= L ->
  (forall f, In f (members k) -> exists y, g f (wf w f) = Ok y /\ length y = n) ->
  (forall f l x, In f (memory k) -> 0 <= l < L -> nth_error (wr w f) (Z.to_nat l) = Some x -> exists y, h f l x = Ok y /\ length y = n) ->
  exists u, both fs rs g h w = Ok u /\ shaped k n L u /\ same_but (members k) (memory k) w u /\
    (forall f, In f (members k) -> g f (wf w f) = Ok (wf u f)) /\
    (forall f l, In f (memory k) -> 0 <= l < L -> exists x y, nth_error (wr w f) (Z.to_nat l) = Some x /\ h f l x = Ok y /\ nth_error (wr u f) (Z.to_nat l) = Some y).
Proof.
  intros (N1&N2&Q1&Q2) Sh PL G H. pose proof Sh as (S1&S2&S3).
  destruct (both_ok fs rs g h w N1 N2) as (u&Eu&Hg&Len&Hh&Hj&B1&B2&B3).
  - intros f I. destruct (G f) as (y&E&_); [now apply Q1|eauto].
  - intros f l I K. apply Q2 in I. rewrite (S3 (mem_ne _ _ I)) in K. destruct (shaped_mem k n L w f l Sh I K) as (x&Ex&_).
    destruct (H f l x I K Ex) as (y&Ey&_). eauto.
  - exists u. split; [exact Eu|].
    assert (Hh' : forall f l, In f (memory k) -> 0 <= l < L -> exists x y, nth_error (wr w f) (Z.to_nat l) = Some x /\ h f l x = Ok y /\ nth_error (wr u f) (Z.to_nat l) = Some y).
    { intros f l I K. apply Hh; [now apply Q2|]. rewrite (S3 (mem_ne _ _ I)). exact K. }
    split; [|split; [|split]].
    + split; [|split].
      * intros f I. destruct (G f I) as (y&E&Ly). rewrite Hg in E by (now apply Q1). congruence.
      * intros f I. destruct (S2 f I) as (Lf&_). assert (Lu : length (wr u f) = length (wr w f)) by (apply Len; now apply Q2). split; [lia|].
        apply Forall_forall. intros v Iv. apply In_nth_error in Iv as (j&Ej).
        assert (j < length (wr u f))%nat by (apply nth_error_Some; congruence).
        destruct (Hh' f (Z.of_nat j) I) as (x&y&A&B&C); [lia|]. rewrite Nat2Z.id in *. destruct (H f (Z.of_nat j) x I) as (y'&E'&Ly'); [lia|rewrite Nat2Z.id; exact A|].
        rewrite Ej in C. congruence.
      * intros Ne. rewrite B3. now apply S3.
    + split; [|split; [|exact B3]].
      * intros f NI. apply B1. intros I. apply NI. now apply Q1.
      * intros f NI. apply B2. intros I. apply NI. now apply Q2.
    + intros f I. apply Hg. now apply Q1.
    + exact Hh'.
Qed.
