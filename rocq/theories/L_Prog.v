(** Abstract interpretation of solver programs: where two runs agree. *)
From Coq Require Import QArith.
From Verif Require Import M_Prog M_Solvers.
Open Scope Z_scope.

Definition isR (s : string) : bool :=
  existsb (String.eqb s) ["Rxx"; "Ryy"; "Rzz"; "Rxy"; "Rxz"; "Ryz"; "rX"; "rY"; "rZ"]%string.

Definition nok (L : nat) (n : nm) : Prop := match n with N s l => if isR s then (l < L)%nat else l = O end.
Definition nstr (n : nm) : string := match n with N s _ => s end.

Lemma nm_eqb_eq a b : nm_eqb a b = true <-> a = b.
Proof.
  destruct a as [s l], b as [s' l']. unfold nm_eqb. rewrite andb_true_iff, String.eqb_eq, Nat.eqb_eq.
  split; [intros [-> ->]; reflexivity|intros E; injection E; auto].
Qed.
Lemma nm_eqb_refl a : nm_eqb a a = true. Proof. apply nm_eqb_eq; reflexivity. Qed.
Lemma upd_same {A} (st : state A) r f : upd st r f r = f.
Proof. unfold upd. rewrite nm_eqb_refl. reflexivity. Qed.
Lemma upd_other {A} (st : state A) r f r' : r <> r' -> upd st r f r' = st r'.
Proof. intros H. unfold upd. destruct (nm_eqb r r') eqn:E; [apply nm_eqb_eq in E; congruence|reflexivity]. Qed.
Lemma upd_case {A} (st : state A) r f r' : {r = r' /\ upd st r f r' = f} + {r <> r' /\ upd st r f r' = st r'}.
Proof.
  destruct (nm_eqb r r') eqn:E.
  - left. apply nm_eqb_eq in E. subst. split; [reflexivity|apply upd_same].
  - right. assert (r <> r') by (intros ->; rewrite nm_eqb_refl in E; discriminate). split; [auto|apply upd_other; auto].
Qed.

Section AI.
Variable A : arith.
Variable V : Type.
Variable reg : V -> Z -> Prop.
Variable meet : V -> V -> option V.
Variable mvt : string -> V -> option V.
Variable geb : V -> V -> bool.

Definition asts := list (string * V).
Fixpoint lk (s : string) (D : asts) : option V :=
  match D with [] => None | (s', v) :: D' => if String.eqb s' s then Some v else lk s D' end.
Definition rm (s : string) (D : asts) : asts := filter (fun sv => negb (String.eqb (fst sv) s)) D.
Definition aset (s : string) (o : option V) (D : asts) : asts :=
  match o with
  | None => rm s D
  | Some v =>
      if isR s then
        match lk s D with
        | Some v0 => match meet v0 v with Some m => (s, m) :: rm s D | None => rm s D end
        | None => D
        end
      else (s, v) :: rm s D
  end.
Definition meeto (a b : option V) : option V :=
  match a, b with Some x, Some y => meet x y | _, _ => None end.

Definition post1 (D : asts) (ins : instr) : asts :=
  match ins with
  | IMv r M s => aset (nstr r) (match lk (nstr s) D with Some v => mvt (nstr M) v | None => None end) D
  | ICp r s | IScal r _ s | ICoef r _ s => aset (nstr r) (lk (nstr s) D) D
  | ISum r s1 s2 | IDif r s1 s2 => aset (nstr r) (meeto (lk (nstr s1) D) (lk (nstr s2) D)) D
  | IMulV r _ | IMulS r _ | ISrc r _ => D
  | IAdd r s | ISub r s | IAddS r _ s | ISubS r _ s => aset (nstr r) (meeto (lk (nstr r) D) (lk (nstr s) D)) D
  | ISwap r s =>
      if isR (nstr r) || isR (nstr s) then rm (nstr r) (rm (nstr s) D)
      else if String.eqb (nstr r) (nstr s) then D
      else aset (nstr s) (lk (nstr r) D) (aset (nstr r) (lk (nstr s) D) D)
  end.
Definition post (D : asts) (p : list instr) : asts := fold_left post1 p D.

(** D implies D' *)
Definition aleb (D D' : asts) : bool :=
  forallb (fun sv => match lk (fst sv) D with Some v => geb v (snd sv) | None => false end) D'.
(** entries of D that survive in D2 *)
Definition awid (D D2 : asts) : asts :=
  flat_map (fun sv => match lk (fst sv) D2 with
                      | Some v2 => match meet (snd sv) v2 with Some m => [(fst sv, m)] | None => [] end
                      | None => [] end) D.

Definition names (ins : instr) : list nm :=
  match ins with
  | IMv r _ s | ICp r s | IScal r _ s | ICoef r _ s | IAdd r s | ISub r s | IAddS r _ s | ISubS r _ s | ISwap r s => [r; s]
  | ISum r s1 s2 | IDif r s1 s2 => [r; s1; s2]
  | IMulV r _ | IMulS r _ | ISrc r _ => [r]
  end.
Fixpoint all_nok (L : nat) (l : list nm) : Prop :=
  match l with [] => True | n :: l' => nok L n /\ all_nok L l' end.
Definition mat_ok (i : instr) : Prop := match i with IMv _ (N _ l) _ => l = O | _ => True end.
Fixpoint prog_ok (L : nat) (p : list instr) : Prop :=
  match p with [] => True | i :: p' => all_nok L (names i) /\ mat_ok i /\ prog_ok L p' end.

Lemma lk_rm s s' D : lk s (rm s' D) = if String.eqb s' s then None else lk s D.
Proof.
  unfold rm. induction D as [|[a v] D IH]; cbn; [destruct (String.eqb s' s); reflexivity|].
  destruct (String.eqb a s') eqn:E1; cbn.
  - apply String.eqb_eq in E1; subst. rewrite IH. destruct (String.eqb s' s); reflexivity.
  - rewrite IH. destruct (String.eqb a s) eqn:E2, (String.eqb s' s) eqn:E3; try reflexivity.
    apply String.eqb_eq in E2; apply String.eqb_eq in E3; subst. rewrite String.eqb_refl in E1. discriminate.
Qed.

Section sem.
Variables (e : env A) (src src' : acq A) (t : nat) (L : nat).
Hypothesis Hmeet : forall v w m i, meet v w = Some m -> reg m i -> reg v i /\ reg w i.
Hypothesis Hmv : forall s v v' i, mvt s v = Some v' -> reg v' i -> forall kc, In kc (e_mat e (N s 0) i) -> reg v (fst kc).
Hypothesis Hsrc : forall ty v i f f', reg v i -> f i = f' i -> scatter (src ty) t f i = scatter (src' ty) t f' i.

Definition agree (D : asts) (st st' : state A) : Prop :=
  forall s v, lk s D = Some v -> forall l, nok L (N s l) -> forall i, reg v i -> st (N s l) i = st' (N s l) i.

Definition hoare (D : asts) (p : list instr) (D' : asts) : Prop :=
  forall st st', agree D st st' -> agree D' (exec e src t p st) (exec e src' t p st').

Lemma agree_aset D st st' r o f f' :
  nok L r -> agree D st st' ->
  (forall v, o = Some v -> forall i, reg v i -> f i = f' i) ->
  agree (aset (nstr r) o D) (upd st r f) (upd st' r f').
Proof using Hmeet.
  intros Hr HA Hf s v Hl l Hl2 i Hi. destruct r as [s0 l0]; cbn [nstr] in *.
  destruct (upd_case st (N s0 l0) f (N s l)) as [[E E1]|[E E1]]; rewrite E1.
  - injection E as -> ->. rewrite upd_same. unfold aset in Hl. destruct o as [v1|].
    + destruct (isR s) eqn:ER.
      * destruct (lk s D) as [v0|] eqn:E0.
        -- destruct (meet v0 v1) as [m|] eqn:Em.
           ++ cbn in Hl. rewrite String.eqb_refl in Hl. injection Hl as <-.
              destruct (Hmeet _ _ _ _ Em Hi). eauto.
           ++ rewrite lk_rm, String.eqb_refl in Hl. discriminate.
        -- congruence.
      * cbn in Hl. rewrite String.eqb_refl in Hl. injection Hl as <-. eauto.
    + rewrite lk_rm, String.eqb_refl in Hl. discriminate.
  - rewrite upd_other by auto. unfold aset in Hl. destruct o as [v1|].
    + destruct (isR s0) eqn:ER.
      * destruct (lk s0 D) as [v0|] eqn:E0.
        -- destruct (meet v0 v1) as [m|] eqn:Em.
           ++ cbn in Hl. destruct (String.eqb s0 s) eqn:Es.
              ** apply String.eqb_eq in Es; subst. injection Hl as <-. destruct (Hmeet _ _ _ _ Em Hi). eapply HA; eauto.
              ** rewrite lk_rm, Es in Hl. eapply HA; eauto.
           ++ rewrite lk_rm in Hl. destruct (String.eqb s0 s); [discriminate|]. eapply HA; eauto.
        -- eapply HA; eauto.
      * cbn in Hl. destruct (String.eqb s0 s) eqn:Es.
        -- apply String.eqb_eq in Es; subst. exfalso. apply E. f_equal.
           unfold nok in *. rewrite ER in *. congruence.
        -- rewrite lk_rm, Es in Hl. eapply HA; eauto.
    + rewrite lk_rm in Hl. destruct (String.eqb s0 s); [discriminate|]. eapply HA; eauto.
Qed.

Lemma agree_same D st st' r (F F' : (Z -> num A) -> Z -> num A) :
  nok L r -> agree D st st' ->
  (forall v i f f', reg v i -> f i = f' i -> F f i = F' f' i) ->
  agree D (upd st r (F (st r))) (upd st' r (F' (st' r))).
Proof.
  intros Hr HA HF s v Hl l Hl2 i Hi.
  destruct (upd_case st r (F (st r)) (N s l)) as [[E E1]|[E E1]]; rewrite E1.
  - subst r. rewrite upd_same. apply (HF v); eauto.
  - rewrite upd_other by auto. eapply HA; eauto.
Qed.

Lemma mv_ext (row : list (Z * num A)) x x' : (forall kc, In kc row -> x (fst kc) = x' (fst kc)) -> mv row x = mv row x'.
Proof.
  unfold mv. generalize (a_q A 0). induction row as [|kc row IH]; intros a H; cbn; [reflexivity|].
  rewrite (H kc) by (left; auto). apply IH. intros k Hk. apply H. right; auto.
Qed.

Lemma lk_agree D st st' n v i : agree D st st' -> nok L n -> lk (nstr n) D = Some v -> reg v i -> st n i = st' n i.
Proof. destruct n as [s l]. intros HA Hn Hl Hi. eapply HA; eauto. Qed.

Lemma meeto_agree D st st' a b v i : agree D st st' -> nok L a -> nok L b ->
  meeto (lk (nstr a) D) (lk (nstr b) D) = Some v -> reg v i -> st a i = st' a i /\ st b i = st' b i.
Proof.
  intros HA Ha Hb Hm Hi. destruct (lk (nstr a) D) as [va|] eqn:Ea; [|discriminate].
  destruct (lk (nstr b) D) as [vb|] eqn:Eb; [|discriminate]. cbn in Hm.
  destruct (Hmeet _ _ _ _ Hm Hi). split; eapply lk_agree; eauto.
Qed.

Lemma post1_sound D ins st st' : all_nok L (names ins) -> mat_ok ins -> agree D st st' ->
  agree (post1 D ins) (exec1 e src t ins st) (exec1 e src' t ins st').
Proof using Hmeet Hmv Hsrc.
  intros Hn Hmo HA. destruct ins; cbn [names all_nok] in Hn; cbn [post1 exec1];
    try (destruct Hn as (Hr&Hs&Hn)); try (apply agree_aset; [exact Hr|exact HA|]).
  - intros v Hv i Hi. destruct (lk (nstr s) D) as [v0|] eqn:E; [|discriminate].
    apply mv_ext. intros kc Hk. eapply lk_agree; eauto. destruct D0 as [d ld]; cbn [nstr mat_ok] in *. subst ld. eapply Hmv; eauto.
  - intros v Hv i Hi. eapply lk_agree; eauto.
  - intros v Hv i Hi. f_equal. eapply lk_agree; eauto.
  - intros v Hv i Hi. f_equal. eapply lk_agree; eauto.
  - intros v Hv i Hi. destruct Hn as [Hn _]. destruct (meeto_agree _ _ _ _ _ _ _ HA Hs Hn Hv Hi) as [-> ->]. reflexivity.
  - intros v Hv i Hi. destruct Hn as [Hn _]. destruct (meeto_agree _ _ _ _ _ _ _ HA Hs Hn Hv Hi) as [-> ->]. reflexivity.
  - destruct Hn as [Hr _]. apply (agree_same D st st' r (fun f i => a_mul A (f i) (e_coef e c i)) (fun f i => a_mul A (f i) (e_coef e c i))); auto.
    intros v i f f' _ ->; reflexivity.
  - destruct Hn as [Hr _]. apply (agree_same D st st' r (fun f i => a_mul A (f i) (scal e k)) (fun f i => a_mul A (f i) (scal e k))); auto.
    intros v i f f' _ ->; reflexivity.
  - intros v Hv i Hi. destruct (meeto_agree _ _ _ _ _ _ _ HA Hr Hs Hv Hi) as [-> ->]. reflexivity.
  - intros v Hv i Hi. destruct (meeto_agree _ _ _ _ _ _ _ HA Hr Hs Hv Hi) as [-> ->]. reflexivity.
  - intros v Hv i Hi. destruct (meeto_agree _ _ _ _ _ _ _ HA Hr Hs Hv Hi) as [-> ->]. reflexivity.
  - intros v Hv i Hi. destruct (meeto_agree _ _ _ _ _ _ _ HA Hr Hs Hv Hi) as [-> ->]. reflexivity.
  - destruct (isR (nstr r)) eqn:ER, (isR (nstr s)) eqn:ES; cbn [orb].
    1-3: intros s0 v Hl l Hl2 i Hi; rewrite !lk_rm in Hl; destruct r as [r lr], s as [s ls]; cbn [nstr] in *;
      destruct (String.eqb r s0) eqn:E1; [discriminate|]; destruct (String.eqb s s0) eqn:E2; [discriminate|];
      rewrite !upd_other by (intros E; injection E; intros; subst; rewrite String.eqb_refl in *; discriminate); eapply HA; eauto.
    destruct (String.eqb (nstr r) (nstr s)) eqn:Ers.
    + apply String.eqb_eq in Ers. destruct r as [r lr], s as [s ls]; cbn [nstr] in *. subst s. unfold nok in Hr, Hs.
      rewrite ER in Hr, Hs. subst. intros s0 v Hl l Hl2 i Hi. unfold upd.
      destruct (nm_eqb (N r 0) (N s0 l)) eqn:E; [apply nm_eqb_eq in E; injection E as -> ->|]; eapply HA; eauto.
    + apply agree_aset; [exact Hs| |].
      * apply agree_aset; [exact Hr|exact HA|]. intros v Hv i Hi. eapply lk_agree; eauto.
      * intros v Hv i Hi. eapply lk_agree; eauto.
  - destruct Hn as [Hr _]. apply (agree_same D st st' r (scatter (src ty) t) (scatter (src' ty) t)); auto.
    intros; eapply Hsrc; eauto.
Qed.

Lemma post_sound D p : prog_ok L p -> hoare D p (post D p).
Proof using Hmeet Hmv Hsrc.
  unfold hoare, exec, post. revert D. induction p as [|ins p IH]; intros D Hp st st' HA; cbn [fold_left]; [exact HA|].
  destruct Hp as (H1&H1'&H2). apply IH; auto. apply post1_sound; auto.
Qed.

Hypothesis Hge : forall v w i, geb v w = true -> reg w i -> reg v i.

Lemma aleb_sound D D' st st' : aleb D D' = true -> agree D st st' -> agree D' st st'.
Proof.
  intros H HA s v Hl l Hl2 i Hi. unfold aleb in H. rewrite forallb_forall in H.
  assert (HI : In (s, v) D').
  { clear -Hl. induction D' as [|[a w] D' IH]; cbn in Hl; [discriminate|]. destruct (String.eqb a s) eqn:E.
    - apply String.eqb_eq in E. injection Hl as ->. left. congruence.
    - right. auto. }
  specialize (H _ HI). cbn in H. destruct (lk s D) as [v0|] eqn:E0; [|discriminate].
  eapply HA; eauto.
Qed.

Lemma h_app D p q D1 D2 : hoare D p D1 -> hoare D1 q D2 -> hoare D (p ++ q) D2.
Proof. intros H1 H2 st st' HA. unfold exec. rewrite !fold_left_app. apply H2, H1, HA. Qed.

Lemma h_weak D p D1 D0 D2 : aleb D D0 = true -> hoare D0 p D1 -> aleb D1 D2 = true -> hoare D p D2.
Proof. intros H1 H H2 st st' HA. eapply aleb_sound; [exact H2|]. apply H. eapply aleb_sound; eauto. Qed.

Lemma h_end D p D1 D2 : hoare D p D1 -> aleb D1 D2 = true -> hoare D p D2.
Proof. intros H H2 st st' HA. eapply aleb_sound; [exact H2|]. apply H, HA. Qed.

Lemma h_when b D p D1 D2 : hoare D p D1 -> aleb D1 D2 = true -> aleb D D2 = true -> hoare D (when b p) D2.
Proof.
  intros H H1 H2 st st' HA. destruct b; cbn [when].
  - eapply aleb_sound; [exact H1|]. apply H, HA.
  - unfold exec; cbn. eapply aleb_sound; eauto.
Qed.

Lemma h_if (b : bool) D p q D1 D1' D2 : hoare D p D1 -> hoare D q D1' -> aleb D1 D2 = true -> aleb D1' D2 = true ->
  hoare D (if b then p else q) D2.
Proof.
  intros H H' H1 H2 st st' HA. destruct b.
  - eapply aleb_sound; [exact H1|]. apply H, HA.
  - eapply aleb_sound; [exact H2|]. apply H', HA.
Qed.

Lemma h_loop D body D1 D2 : (forall l, (l < L)%nat -> hoare D1 (body l) D2) -> aleb D D1 = true -> aleb D2 D1 = true ->
  hoare D (loop L body) D1.
Proof using Hge.
  intros H H1 H2. unfold loop.
  assert (G : forall n s, (s + n <= L)%nat -> hoare D1 (flat_map body (seq s n)) D1).
  { induction n as [|n IH]; intros s Hs; cbn [seq flat_map].
    - intros st st' HA; exact HA.
    - apply h_app with (D1 := D1); [|apply IH; clear -Hs; lia]. intros st st' HA. apply aleb_sound with (D := D2); [exact H2|].
      apply H; [clear -Hs; lia|exact HA]. }
  intros st st' HA. apply G; [apply Nat.le_refl|]. eapply aleb_sound; [exact H1|exact HA].
Qed.
End sem.
End AI.

Arguments lk {V} _ _.
Arguments post {V} _ _ _ _.
Arguments aleb {V} _ _ _.
Arguments awid {V} _ _ _.
Arguments agree {A V} _ _ _ _ _.
Arguments hoare {A V} _ _ _ _ _ _ _ _ _.

Lemma h_post A V (reg : V -> Z -> Prop) meet mvt (e : env A) src src' t L
  (Hmeet : forall v w m i, meet v w = Some m -> reg m i -> reg v i /\ reg w i)
  (Hmv : forall s v v' i, mvt s v = Some v' -> reg v' i -> forall kc, In kc (e_mat e (N s 0) i) -> reg v (fst kc))
  (Hsrc : forall ty v i f f', reg v i -> f i = f' i -> scatter (src ty) t f i = scatter (src' ty) t f' i)
  D p D' : prog_ok L p -> post meet mvt D p = D' -> hoare reg e src src' t L D p D'.
Proof. intros Hp <-. apply post_sound; assumption. Qed.

Ltac h_ok := cbn [prog_ok mat_ok nm_s all_nok names nok isR existsb String.eqb]; repeat split; first [exact I | reflexivity | assumption | lia | idtac].
Ltac h_triv := vm_compute; reflexivity.
(** Runs the analysis along the structure of a program; meet and mvt are the operations of the
    analysis, its soundness hypotheses are taken from the context. *)
Ltac h_go mt mu :=
  lazymatch goal with
  | |- hoare ?reg ?e ?src ?src' ?t ?L ?D (?p ++ ?q) _ => eapply h_app; [h_go mt mu|h_go mt mu]
  | |- hoare ?reg ?e ?src ?src' ?t ?L ?D (when ?b ?p) _ =>
      eapply h_when;
      [ eassumption | h_go mt mu
      | lazymatch goal with |- aleb _ ?D1 ?D2 = true =>
          let W := eval vm_compute in (awid mt D D1) in unify D2 W; h_triv end
      | h_triv]
  | |- hoare ?reg ?e ?src ?src' ?t ?L ?D (if ?b then ?p else ?q) _ =>
      eapply h_if;
      [ eassumption | h_go mt mu | h_go mt mu
      | 
      | lazymatch goal with |- aleb _ ?D1 ?D2 = true => idtac end ];
      [ lazymatch goal with |- aleb _ ?D1 ?D2 = true => unify D2 D1; h_triv end
      | h_triv]
  | |- hoare ?reg ?e ?src ?src' ?t ?L ?D (loop ?L' ?body) _ =>
      let D3 := eval vm_compute in (awid mt D (post mt mu D (body O))) in
      let DD := eval vm_compute in (awid mt D3 (post mt mu D3 (body O))) in
      eapply h_loop with (D1 := DD);
      [ eassumption
      | let l := fresh "l" in let Hl := fresh "Hl" in intros l Hl; cbv beta; h_go mt mu
      | h_triv | h_triv]
  | |- hoare ?reg ?e ?src ?src' ?t ?L ?D ?p _ =>
      let DD := eval vm_compute in (post mt mu D p) in
      apply h_post with (meet := mt) (mvt := mu) (D' := DD);
      [eassumption|eassumption|eassumption|h_ok|vm_compute; reflexivity]
  end.
