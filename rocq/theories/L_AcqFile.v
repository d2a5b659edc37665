(** Lemmas about the text file readers (C28). *)
From Coq Require Import Ascii String.
From Verif Require Import Base M_Grid M_Acq S_Acq.
Open Scope Z_scope.

Lemma isspace_spec c : isspace c = true <-> space c.
Proof.
  split.
  - destruct c as [[] [] [] [] [] [] [] []]; vm_compute; intros H; try discriminate H; tauto.
  - unfold space. intros H. repeat destruct H as [H|H]; subst; try reflexivity. destruct H.
Qed.

Lemma isspace_false c : isspace c = false <-> ~ space c.
Proof. rewrite <- isspace_spec. destruct (isspace c); split; congruence. Qed.

Lemma isdigit_spec c : isdigit c = true -> is_digit c (digit c).
Proof.
  unfold isdigit, is_digit, digit. rewrite andb_true_iff. intros [H1 H2].
  apply Nat.leb_le in H1. apply Nat.leb_le in H2. lia.
Qed.
Lemma isdigit_of c d : is_digit c d -> isdigit c = true /\ digit c = d.
Proof.
  unfold isdigit, is_digit, digit. rewrite andb_true_iff, !Nat.leb_le. lia.
Qed.

(** getlines *)
Lemma getlines_line l r : ~ In nl l -> getlines (l ++ nl :: r) = l :: getlines r.
Proof.
  induction l as [|c l IH]; intros H.
  - reflexivity.
  - cbn [app getlines]. rewrite (proj2 (Ascii.eqb_neq c nl)).
    + rewrite IH; [reflexivity|]. intros K. apply H. right; exact K.
    + intros E. apply H. left; exact E.
Qed.
Lemma getlines_last l : ~ In nl l -> l <> [] -> getlines l = [l].
Proof.
  induction l as [|c l IH]; intros H Hn; [contradiction|].
  cbn [getlines]. rewrite (proj2 (Ascii.eqb_neq c nl)).
  - destruct l as [|d l]; [reflexivity|].
    rewrite IH; [reflexivity| |discriminate]. intros K. apply H. right; exact K.
  - intros E. apply H. left; exact E.
Qed.
Lemma getlines_app ls r : Forall (fun l => ~ In newline l) ls ->
  getlines (flat_map (fun l => l ++ [newline]) ls ++ r)%list = (ls ++ getlines r)%list.
Proof.
  induction 1 as [|l ls H _ IH]; [reflexivity|].
  cbn [flat_map app]. rewrite <- !app_assoc. cbn [app].
  rewrite (getlines_line l); [|exact H]. rewrite IH. reflexivity.
Qed.
Lemma getlines_spec content ls : file_lines content ls -> getlines content = ls.
Proof.
  intros [H [E|(ls' & last & E1 & E2 & E3)]].
  - rewrite E, <- (app_nil_r (flat_map _ _)), getlines_app by exact H. apply app_nil_r.
  - subst. apply Forall_app in H. destruct H as [H1 H2]. inversion H2; subst.
    rewrite getlines_app by exact H1. rewrite getlines_last; [reflexivity|assumption|assumption].
Qed.
Lemma getlines_file content : file_lines content (getlines content).
Proof.
  induction content as [|c s [IH1 IH2]].
  - split; [constructor|left; reflexivity].
  - cbn [getlines]. destruct (Ascii.eqb_spec c nl) as [->|Hc].
    + split; [constructor; [intros []|exact IH1]|].
      destruct IH2 as [E|(ls' & last & E1 & E2 & E3)].
      * left. cbn [flat_map app]. rewrite <- E. reflexivity.
      * right. exists ([] :: ls'), last. rewrite E1. repeat split; [exact E2|].
        cbn [flat_map app]. rewrite <- E3. reflexivity.
    + destruct (getlines s) as [|l ls].
      * destruct IH2 as [E|(ls' & last & E1 & _ & _)]; [|destruct ls'; discriminate E1].
        cbn in E. subst s. split; [apply Forall_cons; [intros [K|[]]; exact (Hc K)|apply Forall_nil]|].
        right. exists [], [c]. repeat split. discriminate.
      * inversion IH1 as [|? ? Hl Hls]; subst. split.
        { constructor; [|exact Hls]. intros [K|K]; [exact (Hc K)|exact (Hl K)]. }
        destruct IH2 as [E|(ls' & last & E1 & E2 & E3)].
        { left. cbn [flat_map app] in E |- *. rewrite E. reflexivity. }
        { right. destruct ls' as [|l' ls'].
          - cbn in E1. inversion E1; subst. exists [], (c :: last). split; [reflexivity|].
            split; [discriminate|]. reflexivity.
          - cbn in E1. inversion E1; subst. exists ((c :: l') :: ls'), last.
            split; [reflexivity|]. split; [exact E2|]. reflexivity. }
Qed.

Lemma skipped_spec l : skipped l = false <-> data_line l.
Proof.
  unfold skipped, data_line. destruct l as [|c r].
  - split; [discriminate|]. intros [(c & [] & _) _].
  - rewrite orb_false_iff. rewrite Ascii.eqb_neq. split.
    + intros [H1 H2]. split.
      * assert (exists x, In x (c :: r) /\ isspace x = false) as (x & Hx & Hs).
        { revert H2. induction (c :: r) as [|y q IH]; [discriminate|].
          cbn [forallb]. destruct (isspace y) eqn:E; intros H2.
          - destruct (IH H2) as (x & Hx & Hs). exists x. split; [right; exact Hx|exact Hs].
          - exists y. split; [left; reflexivity|exact E]. }
        exists x. split; [exact Hx|]. apply isspace_false. exact Hs.
      * intros r' E. inversion E. subst. apply H1. reflexivity.
    + intros [(x & Hx & Hs) H2]. split.
      * intros ->. apply (H2 r). reflexivity.
      * destruct (forallb isspace (c :: r)) eqn:E; [|reflexivity].
        rewrite forallb_forall in E. apply E, isspace_spec in Hx. contradiction.
Qed.

(** words *)
Lemma words_acc_word t s cur : Forall (fun c => ~ space c) t ->
  words_acc (t ++ s) cur = words_acc s (rev t ++ cur).
Proof.
  intros H. revert cur. induction H as [|c t Hc _ IH]; intros cur; [reflexivity|].
  cbn [app words_acc]. apply isspace_false in Hc. rewrite Hc, IH.
  cbn [rev]. rewrite <- app_assoc. reflexivity.
Qed.
Lemma rev_not_nil {A} (l : list A) : l <> [] -> rev l <> [].
Proof. intros H E. apply H. rewrite <- (rev_involutive l), E. reflexivity. Qed.
Lemma words_spec l ts : fields l ts -> words l = ts.
Proof.
  unfold words. induction 1 as [|c l ts Hc _ IH|t Hn Ht|t c l ts Hn Ht Hc _ IH].
  - reflexivity.
  - cbn [words_acc]. apply isspace_spec in Hc. rewrite Hc. exact IH.
  - rewrite <- (app_nil_r t) at 1. rewrite words_acc_word by exact Ht. rewrite app_nil_r.
    cbn [words_acc]. pose proof (rev_not_nil t Hn) as K.
    rewrite <- (rev_involutive t) at 2. destruct (rev t); [contradiction|reflexivity].
  - rewrite words_acc_word by exact Ht. rewrite app_nil_r. cbn [words_acc].
    apply isspace_spec in Hc. rewrite Hc, IH. pose proof (rev_not_nil t Hn) as K.
    rewrite <- (rev_involutive t) at 2. destruct (rev t); [contradiction|reflexivity].
Qed.
Lemma words_acc_fields s cur : Forall (fun c => ~ space c) cur ->
  fields (rev cur ++ s) (words_acc s cur).
Proof.
  revert cur. induction s as [|c s IH]; intros cur H.
  - rewrite app_nil_r. cbn [words_acc]. destruct cur as [|d cur]; [constructor|].
    apply fields_last.
    + apply rev_not_nil. discriminate.
    + apply Forall_rev. exact H.
  - cbn [words_acc]. destruct (isspace c) eqn:E.
    + apply isspace_spec in E. destruct cur as [|d cur].
      * cbn. apply fields_space; [exact E|]. apply (IH []). constructor.
      * apply fields_word; [apply rev_not_nil; discriminate|apply Forall_rev; exact H|exact E|].
        apply (IH []). constructor.
    + apply isspace_false in E. replace (rev cur ++ c :: s)%list with (rev (c :: cur) ++ s)%list.
      * apply IH. constructor; assumption.
      * cbn [rev]. rewrite <- app_assoc. reflexivity.
Qed.
Lemma words_fields l : fields l (words l).
Proof. apply (words_acc_fields l []). constructor. Qed.

Lemma fields_nonspace l ts : fields l ts -> Forall (fun t => t <> [] /\ Forall (fun c => ~ space c) t) ts.
Proof.
  induction 1; [constructor|assumption|repeat constructor; assumption|constructor; [split; assumption|assumption]].
Qed.

(** stoi *)
Lemma digits_val_app ds v : decimal ds v -> forall rest acc,
  (forall c r d, rest = c :: r -> ~ is_digit c d) ->
  digits_val (ds ++ rest) acc = acc * 10 ^ Z.of_nat (List.length ds) + v.
Proof.
  induction 1 as [|c d l v Hd _ IH]; intros rest acc Hr.
  - cbn [app]. destruct rest as [|c r]; cbn [digits_val].
    + cbn. lia.
    + destruct (isdigit c) eqn:E.
      * apply isdigit_spec in E. exfalso. exact (Hr c r (digit c) eq_refl E).
      * cbn. lia.
  - apply isdigit_of in Hd. destruct Hd as [E1 E2]. cbn [app digits_val]. rewrite E1, IH, E2 by exact Hr.
    cbn [List.length]. rewrite Nat2Z.inj_succ, Z.pow_succ_r by lia. ring.
Qed.
Lemma skip_space_id t : Forall (fun c => ~ space c) t -> skip_space t = t.
Proof.
  intros H. destruct t as [|c t]; [reflexivity|]. inversion H as [|? ? Hc _]; subst.
  apply isspace_false in Hc. cbn [skip_space]. rewrite Hc. reflexivity.
Qed.
Lemma starts_digit_dec ds v rest : decimal ds v -> ds <> [] -> starts_digit (ds ++ rest) = true.
Proof.
  intros H Hn. inversion H as [|c d l v' Hd Hl]; subst; [contradiction|].
  cbn. exact (proj1 (isdigit_of c d Hd)).
Qed.
Lemma digit_not_sign c d : is_digit c d -> Ascii.eqb c "-"%char = false /\ Ascii.eqb c "+"%char = false.
Proof.
  intros [H1 H2].
  assert (A1 : Z.of_nat (nat_of_ascii "-"%char) = 45) by reflexivity.
  assert (A2 : Z.of_nat (nat_of_ascii "+"%char) = 43) by reflexivity.
  split; apply Ascii.eqb_neq; intros ->; lia.
Qed.

Lemma stoi_of t n : Forall (fun c => ~ space c) t -> int_text t n -> stoi t = Ok n.
Proof.
  intros Hs (sign & ds & rest & v & Et & Hds & Hv & Hr & Hsign & Hrange). unfold stoi.
  rewrite skip_space_id by exact Hs. subst t.
  assert (Hm : split_sign (sign ++ ds ++ rest) = ((if Z.eqb n v then 1 else -1), (ds ++ rest)%list) \/
               v = 0 /\ exists sg, split_sign (sign ++ ds ++ rest) = (sg, (ds ++ rest)%list)).
  { destruct Hsign as [[-> ->]|[[-> ->]|[-> En]]].
    - left. rewrite Z.eqb_refl. cbn [app]. inversion Hv as [|c d l v' Hd Hl]; subst; [contradiction|].
      unfold split_sign. cbn [app]. destruct (digit_not_sign c d Hd) as [E1 E2]. rewrite E1, E2. reflexivity.
    - left. rewrite Z.eqb_refl. cbn. reflexivity.
    - destruct (Z.eq_dec v 0) as [->|Hv0].
      + right. split; [reflexivity|]. exists (-1). cbn. reflexivity.
      + left. assert (n =? v = false) as -> by lia. cbn. reflexivity. }
  destruct Hm as [-> | [-> [sg ->]]].
  - rewrite (starts_digit_dec ds v rest Hv Hds). rewrite (digits_val_app ds v Hv rest 0 Hr).
    assert (E : (if n =? v then 1 else -1) * (0 * 10 ^ Z.of_nat (List.length ds) + v) = n).
    { destruct (Z.eqb_spec n v); [lia|].
      destruct Hsign as [[_ K]|[[_ K]|[_ K]]]; lia. }
    rewrite E. change (2 ^ 31) with 2147483648 in Hrange.
    replace ((-2147483648 <=? n) && (n <=? 2147483647)) with true by lia. reflexivity.
  - rewrite (starts_digit_dec ds 0 rest Hv Hds). rewrite (digits_val_app ds 0 Hv rest 0 Hr).
    replace (sg * (0 * 10 ^ Z.of_nat (List.length ds) + 0)) with 0 by ring.
    cbn. destruct Hsign as [[_ K]|[[_ K]|[_ K]]]; rewrite K; reflexivity.
Qed.

Lemma digits_split s : exists ds rest v, s = (ds ++ rest)%list /\ decimal ds v /\
  (forall c r d, rest = c :: r -> ~ is_digit c d) /\ (starts_digit s = true -> ds <> []).
Proof.
  induction s as [|c s (ds & rest & v & E & Hv & Hr & _)].
  - exists [], [], 0. repeat split; [constructor|discriminate|discriminate].
  - destruct (isdigit c) eqn:Ec.
    + exists (c :: ds), rest, (digit c * 10 ^ Z.of_nat (List.length ds) + v). repeat split.
      * rewrite E. reflexivity.
      * constructor; [apply isdigit_spec; exact Ec|exact Hv].
      * exact Hr.
      * discriminate.
    + exists [], (c :: s), 0. repeat split.
      * constructor.
      * intros c' r d E' K. inversion E'; subst. apply isdigit_of in K. destruct K as [K _].
        rewrite Ec in K. discriminate.
      * cbn. rewrite Ec. discriminate.
Qed.

Lemma stoi_inv t n : Forall (fun c => ~ space c) t -> stoi t = Ok n -> int_text t n.
Proof.
  intros Hs. unfold stoi. rewrite skip_space_id by exact Hs.
  assert (Hm : exists sg sign s', t = (sign ++ s')%list /\
             (sign = [] /\ sg = 1 \/ sign = ["+"%char] /\ sg = 1 \/ sign = ["-"%char] /\ sg = -1) /\
             split_sign t = (sg, s')).
  { destruct t as [|c t].
    - exists 1, [], []. repeat split. left. split; reflexivity.
    - unfold split_sign. destruct (Ascii.eqb_spec c "-"%char) as [->|_].
      + exists (-1), ["-"%char], t. repeat split. right; right. split; reflexivity.
      + destruct (Ascii.eqb_spec c "+"%char) as [->|_].
        * exists 1, ["+"%char], t. repeat split. right; left. split; reflexivity.
        * exists 1, [], (c :: t). repeat split. left. split; reflexivity. }
  destruct Hm as (sg & sign & s' & Et & Hsg & ->).
  destruct (starts_digit s') eqn:Ed; [|discriminate].
  destruct (digits_split s') as (ds & rest & v & E & Hv & Hr & Hne).
  assert (Ev : digits_val s' 0 = 0 * 10 ^ Z.of_nat (List.length ds) + v) by (rewrite E; exact (digits_val_app ds v Hv rest 0 Hr)).
  rewrite Ev. clear Ev.
  replace (sg * (0 * 10 ^ Z.of_nat (List.length ds) + v)) with (sg * v) by ring.
  destruct ((-2147483648 <=? sg * v) && (sg * v <=? 2147483647)) eqn:Eb; [|discriminate].
  intros K. assert (n = sg * v) as -> by congruence. clear K.
  exists sign, ds, rest, v. repeat split.
  - rewrite Et, E. reflexivity.
  - exact (Hne Ed).
  - exact Hv.
  - exact Hr.
  - destruct Hsg as [[-> ->]|[[-> ->]|[-> ->]]]; [left|right; left|right; right]; split; try reflexivity; lia.
  - change (- 2 ^ 31) with (-2147483648). lia.
  - change (2 ^ 31) with 2147483648. lia.
Qed.

Lemma stoi_total t : (exists n, stoi t = Ok n) \/ stoi t = Throw.
Proof.
  unfold stoi. destruct (split_sign (skip_space t)) as [sg s].
  destruct (starts_digit s); [|right; reflexivity].
  destruct (_ && _); [left; eexists; reflexivity|right; reflexivity].
Qed.

Lemma bind_ok {A B} (x : res A) (f : A -> res B) b :
  bind x f = Ok b <-> exists a, x = Ok a /\ f a = Ok b.
Proof.
  destruct x; cbn; split; intros H; try discriminate; try (destruct H as (? & H & _); discriminate H).
  - eexists; split; [reflexivity|exact H].
  - destruct H as (a' & E & H). inversion E; subst; exact H.
Qed.

(** never undefined behaviour *)
Definition clean {A} (x : res A) : Prop := (exists a, x = Ok a) \/ x = Throw.
Lemma clean_bind {A B} (x : res A) (f : A -> res B) : clean x -> (forall a, clean (f a)) -> clean (bind x f).
Proof. intros [[a ->]| ->] H; cbn; [apply H|right; reflexivity]. Qed.
Lemma clean_ok {A} (a : A) : clean (Ok a). Proof. left; eexists; reflexivity. Qed.
Lemma clean_stoi t : clean (stoi t). Proof. exact (stoi_total t). Qed.

Section Read.
  Context {F : Type} (stof : str -> option F).

  Lemma clean_stof t : clean (stof_ F stof t).
  Proof. unfold stof_. destruct (stof t); [apply clean_ok|right; reflexivity]. Qed.
  Lemma stof_ok t v : stof_ F stof t = Ok v <-> stof t = Some v.
  Proof. unfold stof_. destruct (stof t); split; congruence. Qed.

  Ltac destruct10 ts :=
    do 10 (let t := fresh "t" in destruct ts as [|t ts]; [right; reflexivity|]); destruct ts; [|right; reflexivity].

  Lemma clean_line l r : clean (read_source_line F stof l r).
  Proof.
    unfold read_source_line. generalize (words l). intros ts. destruct10 ts.
    repeat (apply clean_bind; [first [apply clean_stoi|apply clean_stof]|intros ?]). apply clean_ok.
  Qed.
  Lemma clean_sources ls r : clean (read_sources_loop F stof ls r).
  Proof.
    revert r. induction ls as [|l ls IH]; intros r; cbn [read_sources_loop]; [apply clean_ok|].
    destruct (skipped l); [apply IH|]. apply clean_bind; [apply clean_line|]. intros s.
    apply clean_bind; [apply IH|]. intros; apply clean_ok.
  Qed.

  Lemma source_line_iff l r s :
    read_source_line F stof l r = Ok s <-> source_columns stof l s /\ row s = r.
  Proof.
    pose proof (fields_nonspace l _ (words_fields l)) as Hw.
    unfold read_source_line. split.
    - pose proof (words_fields l) as Hf. intros H. revert H Hf Hw. generalize (words l). intros ts.
      do 10 (let t := fresh "t" in destruct ts as [|t ts]; [discriminate|]). destruct ts; [|discriminate].
      intros H Hf Hw. rewrite !Forall_cons_iff in Hw.
      do 10 (apply bind_ok in H; let v := fresh "v" in let E := fresh "E" in destruct H as (v & E & H)).
      inversion H; subst; clear H. split; [|reflexivity].
      unfold source_columns. exists t, t0, t1, t2, t3, t4, t5, t6, t7, t8. cbn.
      split; [exact Hf|].
      repeat (split; [first [apply stoi_inv; [tauto|assumption]|apply stof_ok; assumption]|]).
      apply stof_ok; assumption.
    - intros [(t0&t1&t2&t3&t4&t5&t6&t7&t8&t9&Hf&H0&H1&H2&H3&H4&H5&H6&H7&H8&H9) Hr].
      apply words_spec in Hf. rewrite Hf in *. rewrite !Forall_cons_iff in Hw.
      rewrite (stoi_of t0 _ ltac:(tauto) H0), (stoi_of t1 _ ltac:(tauto) H1), (stoi_of t2 _ ltac:(tauto) H2),
        (stoi_of t3 _ ltac:(tauto) H3), (stoi_of t4 _ ltac:(tauto) H4), (stoi_of t5 _ ltac:(tauto) H5),
        (stoi_of t6 _ ltac:(tauto) H6).
      apply stof_ok in H7, H8, H9. cbn [bind]. rewrite H7, H8, H9. cbn [bind].
      destruct s as [? [] ? ? ? ? ? ? ?]; cbn in *. subst. reflexivity.
  Qed.

  Lemma sources_iff ls dl : select data_line ls dl -> forall r out,
    read_sources_loop F stof ls r = Ok out <->
    Forall2 (source_columns stof) dl out /\ map row out = zseq (r + 1) (List.length out).
  Proof.
    induction 1 as [|l ls dl Hl _ IH|l ls dl Hl _ IH]; intros r out; cbn [read_sources_loop].
    - split.
      + intros H; inversion H; subst. split; [constructor|reflexivity].
      + intros [H _]. inversion H; subst. reflexivity.
    - apply skipped_spec in Hl. rewrite Hl. rewrite bind_ok. split.
      + intros (s & E1 & H). apply bind_ok in H. destruct H as (rest & E2 & H). inversion H; subst.
        apply source_line_iff in E1. destruct E1 as [E1 E1']. apply IH in E2. destruct E2 as [E2 E2'].
        split; [constructor; assumption|]. cbn. rewrite E1', E2'. reflexivity.
      + intros [H E]. inversion H as [|a s b rest Hs Hrest]; subst. cbn in E.
        assert (E1 : row s = r + 1) by congruence.
        assert (E2 : map row rest = zseq (r + 1 + 1) (List.length rest)) by congruence. clear E.
        exists s. split; [apply source_line_iff; split; [exact Hs|exact E1]|].
        apply bind_ok. exists rest. split; [|reflexivity]. apply IH. split; [exact Hrest|exact E2].
    - assert (skipped l = true) as ->.
      { destruct (skipped l) eqn:E; [reflexivity|]. apply skipped_spec in E. contradiction. }
      apply IH.
  Qed.
End Read.

Lemma select_ex (ls : list str) : exists dl, select data_line ls dl.
Proof.
  induction ls as [|l ls [dl IH]]; [exists []; constructor|].
  destruct (skipped l) eqn:E.
  - exists dl. apply select_drop; [|exact IH]. intros K. apply skipped_spec in K. congruence.
  - exists (l :: dl). apply select_keep; [apply skipped_spec; exact E|exact IH].
Qed.

Lemma clean_rline l : clean (read_receiver_line l).
Proof.
  unfold read_receiver_line. generalize (words l). intros ts.
  do 4 (let t := fresh "t" in destruct ts as [|t ts]; [right; reflexivity|]); destruct ts; [|right; reflexivity].
  repeat (apply clean_bind; [apply clean_stoi|intros ?]). apply clean_ok.
Qed.
Lemma clean_receivers ls : clean (read_receivers_loop ls).
Proof.
  induction ls as [|l ls IH]; cbn [read_receivers_loop]; [apply clean_ok|].
  destruct (skipped l); [apply IH|]. apply clean_bind; [apply clean_rline|]. intros s.
  apply clean_bind; [apply IH|]. intros; apply clean_ok.
Qed.
Lemma receiver_line_iff l s : read_receiver_line l = Ok s <-> receiver_columns l s.
Proof.
  pose proof (fields_nonspace l _ (words_fields l)) as Hw.
  unfold read_receiver_line. split.
  - pose proof (words_fields l) as Hf. intros H. revert H Hf Hw. generalize (words l). intros ts.
    do 4 (let t := fresh "t" in destruct ts as [|t ts]; [discriminate|]). destruct ts; [|discriminate].
    intros H Hf Hw. rewrite !Forall_cons_iff in Hw.
    do 4 (apply bind_ok in H; let v := fresh "v" in let E := fresh "E" in destruct H as (v & E & H)).
    inversion H; subst; clear H.
    unfold receiver_columns. exists t, t0, t1, t2. cbn. split; [exact Hf|].
    repeat (split; [apply stoi_inv; [tauto|assumption]|]). apply stoi_inv; [tauto|assumption].
  - intros (t0&t1&t2&t3&Hf&H0&H1&H2&H3).
    apply words_spec in Hf. rewrite Hf in *. rewrite !Forall_cons_iff in Hw.
    rewrite (stoi_of t0 _ ltac:(tauto) H0), (stoi_of t1 _ ltac:(tauto) H1), (stoi_of t2 _ ltac:(tauto) H2),
      (stoi_of t3 _ ltac:(tauto) H3).
    destruct s as [[] ?]; reflexivity.
Qed.
Lemma receivers_iff ls dl : select data_line ls dl -> forall out,
  read_receivers_loop ls = Ok out <-> Forall2 receiver_columns dl out.
Proof.
  induction 1 as [|l ls dl Hl _ IH|l ls dl Hl _ IH]; intros out; cbn [read_receivers_loop].
  - split.
    + intros H; inversion H; subst. constructor.
    + intros H. inversion H; subst. reflexivity.
  - apply skipped_spec in Hl. rewrite Hl. rewrite bind_ok. split.
    + intros (s & E1 & H). apply bind_ok in H. destruct H as (rest & E2 & H). inversion H; subst.
      apply receiver_line_iff in E1. apply IH in E2. constructor; assumption.
    + intros H. inversion H as [|a s b rest Hs Hrest]; subst.
      exists s. split; [apply receiver_line_iff; exact Hs|].
      apply bind_ok. exists rest. split; [|reflexivity]. apply IH. exact Hrest.
  - assert (skipped l = true) as ->.
    { destruct (skipped l) eqn:E; [reflexivity|]. apply skipped_spec in E. contradiction. }
    apply IH.
Qed.

Lemma fields_det l ts ts' : fields l ts -> fields l ts' -> ts = ts'.
Proof. intros H H'. rewrite <- (words_spec l ts H). apply words_spec. exact H'. Qed.
