(** Lemmas about configuration files. *)
From Coq Require Import Ascii String.
From Verif Require Import Base M_Acq S_Acq L_AcqFile M_Conf S_Conf.
Open Scope Z_scope.
Local Notation length := List.length.

Lemma str_eqb_true a b : str_eqb a b = true <-> a = b.
Proof. unfold str_eqb. destruct (list_eq_dec ascii_dec a b); split; congruence. Qed.
Lemma str_eqb_false a b : str_eqb a b = false <-> a <> b.
Proof. unfold str_eqb. destruct (list_eq_dec ascii_dec a b); split; congruence. Qed.
Lemma str_eqb_refl a : str_eqb a a = true.
Proof. apply str_eqb_true. reflexivity. Qed.

(** ** Letter case *)
Lemma nat_small c : (nat_of_ascii c < 256)%nat.
Proof. apply nat_ascii_bounded. Qed.
Lemma tolower_same c d : tolower c = tolower d <-> same_letter c d.
Proof.
  split.
  - unfold tolower. pose proof (nat_small c) as Hc. pose proof (nat_small d) as Hd.
    destruct ((65 <=? nat_of_ascii c)%nat && (nat_of_ascii c <=? 90)%nat)%bool eqn:E1;
    destruct ((65 <=? nat_of_ascii d)%nat && (nat_of_ascii d <=? 90)%nat)%bool eqn:E2; intros H.
    + apply (f_equal nat_of_ascii) in H. rewrite !nat_ascii_embedding in H by lia.
      assert (E : c = d) by (rewrite <- (ascii_nat_embedding c), <- (ascii_nat_embedding d); f_equal; lia).
      rewrite E. constructor.
    + rewrite <- (ascii_nat_embedding c) at 1. rewrite <- H.
      replace (nat_of_ascii c) with (65 + (nat_of_ascii c - 65))%nat at 1 by lia.
      replace (nat_of_ascii c + 32)%nat with (97 + (nat_of_ascii c - 65))%nat by lia.
      constructor. lia.
    + rewrite <- (ascii_nat_embedding d) at 1. rewrite H.
      replace (nat_of_ascii d) with (65 + (nat_of_ascii d - 65))%nat at 2 by lia.
      replace (nat_of_ascii d + 32)%nat with (97 + (nat_of_ascii d - 65))%nat by lia.
      constructor. lia.
    + rewrite H. constructor.
  - intros [c'|i Hi|i Hi]; [reflexivity| |]; do 26 (destruct i as [|i]; [reflexivity|]); lia.
Qed.
Lemma lower_same a b : lower a = lower b <-> same_name a b.
Proof.
  unfold lower, same_name. split.
  - revert b. induction a as [|x a IH]; intros [|y b] H; try discriminate; constructor.
    + apply tolower_same. cbn in H. congruence.
    + apply IH. cbn in H. congruence.
  - induction 1 as [|x y a b H _ IH]; [reflexivity|]. cbn. rewrite IH. f_equal. apply tolower_same, H.
Qed.
Lemma tolower_hash c : tolower c = "#"%char <-> c = "#"%char.
Proof.
  split; [|intros ->; reflexivity]. intros H. change "#"%char with (tolower "#"%char) in H.
  apply tolower_same in H. inversion H as [|i Hi E1 E2|i Hi E1 E2]; [reflexivity| |];
    exfalso; clear - E2 Hi; do 26 (destruct i as [|i]; [discriminate E2|]); lia.
Qed.
Lemma lower_hash n : In "#"%char (lower n) <-> In "#"%char n.
Proof.
  unfold lower. rewrite in_map_iff. split.
  - intros (c & E & H). apply (proj1 (tolower_hash c)) in E. subst. exact H.
  - intros H. exists "#"%char. split; [reflexivity|exact H].
Qed.
Lemma tolower_idem c : tolower (tolower c) = tolower c.
Proof.
  pose proof (nat_small c) as Hc. unfold tolower at 2 3.
  destruct ((65 <=? nat_of_ascii c)%nat && (nat_of_ascii c <=? 90)%nat)%bool eqn:E1.
  - unfold tolower. rewrite nat_ascii_embedding by lia.
    destruct ((65 <=? nat_of_ascii c + 32)%nat && (nat_of_ascii c + 32 <=? 90)%nat)%bool eqn:E2; [lia|reflexivity].
  - unfold tolower. rewrite E1. reflexivity.
Qed.
Lemma lower_idem n : lower (lower n) = lower n.
Proof. unfold lower. rewrite map_map. apply map_ext. apply tolower_idem. Qed.

(** ** Splitting lines *)
Lemma find_none c s : find_char c s = None <-> ~ In c s.
Proof.
  induction s as [|d s IH]; cbn; [tauto|]. destruct (Ascii.eqb_spec d c) as [->|N].
  - split; [discriminate|intros H; exfalso; apply H; left; reflexivity].
  - destruct (find_char c s); cbn; split; try discriminate; intros H.
    + exfalso. apply H. right. destruct IH as [_ IH]. destruct (in_dec ascii_dec c s) as [I|I]; [exact I|].
      specialize (IH I). discriminate.
    + intros [E|I]; [congruence|]. apply IH in I; [exact I|reflexivity].
    + reflexivity.
Qed.
Lemma find_app c a b : ~ In c a -> find_char c (a ++ c :: b) = Some (length a).
Proof.
  induction a as [|d a IH]; intros H; cbn.
  - rewrite Ascii.eqb_refl. reflexivity.
  - destruct (Ascii.eqb_spec d c) as [->|N]; [exfalso; apply H; left; reflexivity|].
    rewrite IH by (intros I; apply H; right; exact I). reflexivity.
Qed.
Lemma find_some c s i : find_char c s = Some i -> exists a b, s = a ++ c :: b /\ length a = i /\ ~ In c a.
Proof.
  revert i. induction s as [|d s IH]; intros i; cbn; [discriminate|].
  destruct (Ascii.eqb_spec d c) as [->|N].
  - intros [= <-]. exists [], s. repeat split. intros [].
  - destruct (find_char c s) as [j|]; [|discriminate]. cbn. intros [= <-].
    destruct (IH j eq_refl) as (a & b & -> & L & H). exists (d :: a), b. split; [reflexivity|].
    split; [cbn; lia|]. intros [E|I]; [congruence|contradiction].
Qed.
Lemma firstn_exact {A} (a b : list A) : firstn (length a) (a ++ b) = a.
Proof. rewrite firstn_app, firstn_all, Nat.sub_diag. cbn. apply app_nil_r. Qed.
Lemma skipn_exact {A} (a b : list A) : skipn (length a) (a ++ b) = b.
Proof. rewrite skipn_app, skipn_all, Nat.sub_diag. reflexivity. Qed.

Lemma substr_mid n v c : substr (n ++ "="%char :: v ++ c) (length n + 1) (Z.of_nat (length v)) = v.
Proof.
  unfold substr. replace (length n + 1)%nat with (length (n ++ ["="%char])) by (rewrite app_length; reflexivity).
  replace (n ++ "="%char :: v ++ c)%list with ((n ++ ["="%char]) ++ v ++ c)%list by (rewrite <- app_assoc; reflexivity).
  rewrite skipn_exact. rewrite !app_length. cbn [length].
  replace (Z.to_nat _) with (length v) by lia. apply firstn_exact.
Qed.

Lemma defines_parse l n v : defines l n v -> parse_line l = Some (lower n, v).
Proof.
  intros (H1 & H2 & H3 & c & -> & Hc). unfold parse_line.
  assert (FE : find_char "="%char (n ++ "="%char :: v ++ c) = Some (length n)) by (apply find_app; exact H2).
  rewrite FE. rewrite firstn_exact.
  destruct Hc as [->|(c' & ->)].
  - assert (FH : find_char "#"%char (n ++ "="%char :: v ++ []) = None).
    { apply find_none. rewrite app_nil_r, in_app_iff. cbn [In]. intros [I|[I|I]]; [contradiction|discriminate|contradiction]. }
    rewrite FH. do 2 f_equal. rewrite <- (substr_mid n v []) at 3. f_equal.
    rewrite app_nil_r, app_length. cbn [length]. unfold size_t.
    match goal with |- (if ?a <? ?b then _ else _) = _ => destruct (Z.ltb_spec a b) end; lia.
  - assert (FH : find_char "#"%char (n ++ "="%char :: v ++ "#"%char :: c') = Some (length n + 1 + length v)%nat).
    { replace (n ++ "="%char :: v ++ "#"%char :: c')%list with ((n ++ "="%char :: v) ++ "#"%char :: c')%list
        by (rewrite <- app_assoc; reflexivity).
      rewrite find_app.
      - rewrite app_length. cbn [length]. f_equal. lia.
      - rewrite in_app_iff. cbn [In]. intros [I|[I|I]]; [contradiction|discriminate|contradiction]. }
    rewrite FH. replace (Nat.eqb (length n + 1 + length v) 0) with false by lia.
    do 2 f_equal. rewrite <- (substr_mid n v ("#"%char :: c')) at 3. f_equal.
    unfold size_t. match goal with |- (if ?a <? ?b then _ else _) = _ => destruct (Z.ltb_spec a b) end; lia.
Qed.

Lemma parse_shape l nm v : parse_line l = Some (nm, v) -> exists n r, l = (n ++ "="%char :: r)%list /\ nm = lower n /\ ~ In "="%char n /\
  (forall q, n <> "#"%char :: q).
Proof.
  unfold parse_line. destruct (find_char "#"%char l) as [p|] eqn:FH.
  - destruct (Nat.eqb_spec p 0) as [|Hp]; [discriminate|].
    destruct (find_char "="%char l) as [e|] eqn:FE; [|discriminate]. intros [= <- _].
    apply find_some in FE. destruct FE as (n & r & -> & <- & H). exists n, r. rewrite firstn_exact. repeat split; [exact H|].
    intros q ->. cbn in FH. congruence.
  - destruct (find_char "="%char l) as [e|] eqn:FE; [|discriminate]. intros [= <- _].
    apply find_some in FE. destruct FE as (n & r & -> & <- & H). exists n, r. rewrite firstn_exact. repeat split; [exact H|].
    intros q ->. cbn in FH. discriminate.
Qed.
Lemma parse_none l : parse_line l = None <-> ~ In "="%char l \/ exists r, l = "#"%char :: r.
Proof.
  unfold parse_line. destruct (find_char "#"%char l) as [p|] eqn:FH.
  - destruct (Nat.eqb_spec p 0) as [->|Hp].
    + apply find_some in FH. destruct FH as (a & b & -> & L & _). destruct a; [|discriminate]. cbn. split; eauto.
    + destruct (find_char "="%char l) as [e|] eqn:FE.
      * split; [discriminate|]. intros [H|(r & ->)].
        -- apply find_none in H. congruence.
        -- cbn in FH. congruence.
      * apply find_none in FE. tauto.
  - destruct (find_char "="%char l) as [e|] eqn:FE.
    + split; [discriminate|]. intros [H|(r & ->)].
      * apply find_none in H. congruence.
      * cbn in FH. discriminate.
    + apply find_none in FE. tauto.
Qed.

Lemma parse_defines l nm v : parse_line l = Some (nm, v) -> ~ In "#"%char nm -> exists n, defines l n v /\ nm = lower n.
Proof.
  intros P NH. destruct (parse_shape l nm v P) as (n & r & -> & -> & HE & HQ). rewrite lower_hash in NH.
  exists n. split; [|reflexivity].
  destruct (find_char "#"%char r) as [p|] eqn:FR.
  - apply find_some in FR. destruct FR as (v' & c & -> & _ & Hv).
    assert (D : defines (n ++ "="%char :: v' ++ "#"%char :: c)%list n v').
    { repeat split; try assumption. exists ("#"%char :: c). split; [reflexivity|]. right. exists c. reflexivity. }
    pose proof (defines_parse _ _ _ D) as P'. rewrite P in P'. injection P' as ->. exact D.
  - apply find_none in FR.
    assert (D : defines (n ++ "="%char :: r)%list n r).
    { repeat split; try assumption. exists []. split; [rewrite app_nil_r; reflexivity|left; reflexivity]. }
    pose proof (defines_parse _ _ _ D) as P'. rewrite P in P'. injection P' as ->. exact D.
Qed.

(** ** The map *)
Lemma lookup_erase m k k' : lookup (erase m k) k' = if str_eqb k k' then None else lookup m k'.
Proof.
  induction m as [|[a v] m IH]; cbn; [destruct (str_eqb k k'); reflexivity|].
  fold (erase m k). destruct (str_eqb a k) eqn:E1; cbn.
  - apply str_eqb_true in E1. subst. rewrite IH. destruct (str_eqb k k'); reflexivity.
  - rewrite IH. destruct (str_eqb k k') eqn:E2.
    + apply str_eqb_true in E2. subst. rewrite E1. reflexivity.
    + reflexivity.
Qed.
Lemma lookup_add k v ow c k' : lookup (cmap (add2map k v ow c)) k' =
  if str_eqb k k' then match lookup (cmap c) k with None => Some v | Some o => if ow then Some v else Some o end
  else lookup (cmap c) k'.
Proof.
  unfold add2map. destruct (lookup (cmap c) k) as [o|] eqn:E.
  - destruct ow; cbn.
    + destruct (str_eqb k k') eqn:E2; [reflexivity|]. rewrite lookup_erase, E2. reflexivity.
    + destruct (str_eqb k k') eqn:E2; [|reflexivity]. apply str_eqb_true in E2. subst. exact E.
  - cbn. destruct (str_eqb k k'); reflexivity.
Qed.

(** ** Reading a file *)
Definition v2D : str := txt "2D              ".
Definition flag_step (flag : bool) (l : str) : bool :=
  match parse_line l with
  | Some (n, v) => if str_eqb n (txt "dimension") && str_eqb v v2D then true else flag
  | None => flag
  end.
Definition flag_after (flag : bool) (ls : list str) : bool := fold_left flag_step ls flag.

Lemma read_app a b ow flag c :
  read_lines (a ++ b) ow flag c = read_lines b ow (flag_after flag a) (read_lines a ow flag c).
Proof.
  revert flag c. induction a as [|l a IH]; intros flag c; [reflexivity|]. cbn [app read_lines flag_after fold_left].
  unfold flag_step at 2. destruct (parse_line l) as [[n v]|]; apply IH.
Qed.
Lemma flag_true flag ls : flag_after flag ls = true <-> flag = true \/ two_dimensional ls.
Proof.
  revert flag. induction ls as [|l ls IH]; intros flag; cbn [flag_after fold_left].
  - split; [tauto|]. intros [H|(l & n & [] & _)]; exact H.
  - fold (flag_after (flag_step flag l) ls). rewrite IH. unfold flag_step.
    assert (K : (match parse_line l with Some (n, v) => if str_eqb n (txt "dimension") && str_eqb v v2D then true else flag | None => flag end) = true
      <-> flag = true \/ exists n, same_name n (txt "dimension") /\ defines l n v2D).
    { destruct (parse_line l) as [[nm v]|] eqn:P.
      - destruct (str_eqb nm (txt "dimension") && str_eqb v v2D) eqn:E.
        + apply andb_true_iff in E. destruct E as [E1 E2]. apply str_eqb_true in E1, E2. subst nm v.
          split; [|reflexivity]. intros _. right.
          destruct (parse_defines l _ _ P) as (n & D & En).
          { vm_compute. intuition discriminate. }
          exists n. split; [|exact D]. apply lower_same. rewrite <- En. reflexivity.
        + split; [tauto|]. intros [H|(n & Hn & D)]; [exact H|].
          rewrite (defines_parse _ _ _ D) in P. injection P as <- <-.
          apply lower_same in Hn. rewrite Hn in E. vm_compute in E. discriminate.
      - split; [tauto|]. intros [H|(n & Hn & D)]; [exact H|]. rewrite (defines_parse _ _ _ D) in P. discriminate. }
    rewrite K. split.
    + intros [[H|(n & Hn & D)]|(l' & n & I & Hn & D)]; [left; exact H| |].
      * right. exists l, n. split; [left; reflexivity|]. split; assumption.
      * right. exists l', n. split; [right; exact I|]. split; assumption.
    + intros [H|(l' & n & [->|I] & Hn & D)]; [left; left; exact H| |].
      * left. right. exists n. split; assumption.
      * right. exists l', n. split; [exact I|]. split; assumption.
Qed.

(** lines that do not define [name] leave it alone *)
Lemma read_other ls ow flag c name : plain name -> no_definition ls name ->
  lookup (cmap (read_lines ls ow flag c)) (lower name) = lookup (cmap c) (lower name).
Proof.
  intros HP. revert flag c. induction ls as [|l ls IH]; intros flag c H; [reflexivity|]. cbn [read_lines].
  assert (H' : no_definition ls name) by (intros l' n v I; apply (H l' n v); right; exact I).
  destruct (parse_line l) as [[nm v]|] eqn:P; [|apply IH, H'].
  rewrite IH by exact H'. rewrite lookup_add.
  destruct (str_eqb nm (lower name)) eqn:E; [|reflexivity].
  apply str_eqb_true in E. subst nm. exfalso.
  destruct (parse_defines l _ _ P) as (n & D & En).
  { rewrite lower_hash. apply HP. }
  apply (H l n v); [left; reflexivity|exact D|]. apply lower_same. congruence.
Qed.
(** a line that defines [name] *)
Definition given (before : list str) (flag : bool) (name v : str) : str :=
  if str_eqb (lower name) (txt "nz") && flag_after flag before then txt "1" else v.
Lemma read_one l ow flag c name n v : defines l n v -> same_name n name ->
  lookup (cmap (read_lines [l] ow flag c)) (lower name)
  = match lookup (cmap c) (lower name) with
    | Some o => if ow then Some (given [] flag name v) else Some o
    | None => Some (given [] flag name v)
    end.
Proof.
  intros D Hn. cbn [read_lines]. rewrite (defines_parse _ _ _ D). apply lower_same in Hn. rewrite Hn.
  rewrite lookup_add, str_eqb_refl. unfold given, flag_after. cbn [fold_left].
  assert (E : (str_eqb (lower name) (txt "nz") && (if str_eqb (lower name) (txt "dimension") && str_eqb v v2D then true else flag))
              = (str_eqb (lower name) (txt "nz") && flag)).
  { destruct (str_eqb (lower name) (txt "nz")) eqn:E; [|reflexivity]. apply str_eqb_true in E. rewrite E. reflexivity. }
  unfold v2D in E. rewrite E. destruct (lookup (cmap c) (lower name)); [|reflexivity]. destruct ow; reflexivity.
Qed.
Lemma read_overwrite before l after c name n v flag : plain name -> defines l n v -> same_name n name ->
  no_definition after name ->
  lookup (cmap (read_lines (before ++ l :: after) true flag c)) (lower name) = Some (given before flag name v).
Proof.
  intros HP D Hn HA. rewrite read_app. change (l :: after) with ([l] ++ after). rewrite read_app.
  rewrite read_other by assumption. rewrite (read_one l true _ _ name n v D Hn).
  unfold given. cbn [flag_after fold_left]. destruct (lookup _ _); reflexivity.
Qed.
Lemma read_keep ls flag c name o : plain name -> lookup (cmap c) (lower name) = Some o ->
  lookup (cmap (read_lines ls false flag c)) (lower name) = Some o.
Proof.
  intros HP. revert flag c. induction ls as [|l ls IH]; intros flag c H; [exact H|]. cbn [read_lines].
  destruct (parse_line l) as [[nm v]|]; [|apply IH, H]. apply IH. rewrite lookup_add.
  destruct (str_eqb nm (lower name)) eqn:E; [|exact H]. apply str_eqb_true in E. subst. rewrite H. reflexivity.
Qed.
Lemma read_first before l after c name n v flag : plain name -> defines l n v -> same_name n name ->
  no_definition before name -> lookup (cmap c) (lower name) = None ->
  lookup (cmap (read_lines (before ++ l :: after) false flag c)) (lower name) = Some (given before flag name v).
Proof.
  intros HP D Hn HB H. rewrite read_app. change (l :: after) with ([l] ++ after). rewrite read_app.
  apply read_keep; [exact HP|]. rewrite (read_one l false _ _ name n v D Hn). rewrite read_other by assumption.
  rewrite H. reflexivity.
Qed.

(** ** Comments *)
Lemma without_parse l l' nm : without_comment l l' -> ~ In "#"%char nm ->
  forall v, parse_line l = Some (nm, v) <-> parse_line l' = Some (nm, v).
Proof.
  intros (H & c & -> & Hc) NH v. split; intros P.
  - destruct (parse_defines _ _ _ P NH) as (n & (D1 & D2 & D3 & d & E & Hd) & ->).
    assert (EL : l' = (n ++ "="%char :: v)%list).
    { (* both are the part before the first # *)
      assert (U : forall (a b x y : str), ~ In "#"%char a -> ~ In "#"%char b ->
                 (x = [] \/ exists x', x = "#"%char :: x') -> (y = [] \/ exists y', y = "#"%char :: y') ->
                 (a ++ x = b ++ y)%list -> a = b).
      { induction a as [|p a IHa]; intros [|q b] x y Ha Hb Hx Hy EE; [reflexivity| | |].
        - exfalso. destruct Hx as [->|(x' & ->)]; [discriminate|]. cbn in EE. injection EE as Eq _. apply Hb. left. symmetry; exact Eq.
        - exfalso. destruct Hy as [->|(y' & ->)]; [discriminate|]. cbn in EE. injection EE as Eq _. apply Ha. left. exact Eq.
        - cbn in EE. injection EE as -> EE. f_equal. apply (IHa b x y); try assumption.
          + intros I; apply Ha; right; exact I.
          + intros I; apply Hb; right; exact I. }
      apply (U l' (n ++ "="%char :: v)%list c d); try assumption.
      - rewrite in_app_iff. cbn [In]. intros [I|[I|I]]; [contradiction|discriminate|contradiction].
      - rewrite E, <- app_assoc. reflexivity. }
    subst l'. apply defines_parse. repeat split; try assumption. exists []. split; [rewrite app_nil_r; reflexivity|left; reflexivity].
  - destruct (parse_defines _ _ _ P NH) as (n & (D1 & D2 & D3 & d & E & Hd) & ->).
    destruct Hd as [->|(d' & ->)].
    2:{ exfalso. apply H. rewrite E. apply in_or_app. right. right. apply in_or_app. right. left. reflexivity. }
    rewrite app_nil_r in E. subst l'. apply defines_parse. repeat split; try assumption.
    exists c. split; [rewrite <- app_assoc; reflexivity|exact Hc].
Qed.
Lemma read_comments ls ls' : Forall2 without_comment ls ls' -> forall ow flag c c' name,
  (forall n, ~ In "#"%char n -> lookup (cmap c) n = lookup (cmap c') n) -> ~ In "#"%char name ->
  lookup (cmap (read_lines ls ow flag c)) name = lookup (cmap (read_lines ls' ow flag c')) name.
Proof.
  intros F. induction F as [|l l' ls ls' W _ IH]; intros ow flag c c' name HC HN; [apply HC, HN|].
  cbn [read_lines].
  assert (ADD : forall nm v, (forall n, ~ In "#"%char n -> lookup (cmap (add2map nm v ow c)) n = lookup (cmap (add2map nm v ow c')) n)).
  { intros nm v n Hn. rewrite !lookup_add. destruct (str_eqb nm n) eqn:E; [|apply HC, Hn].
    apply str_eqb_true in E. subst. rewrite (HC n Hn). reflexivity. }
  assert (NH : forall nm' v', parse_line l' = Some (nm', v') -> ~ In "#"%char nm').
  { intros nm' v' P'. destruct W as (W1 & _). destruct (parse_shape _ _ _ P') as (n & r & E & -> & _).
    rewrite lower_hash. intros J. apply W1. rewrite E. apply in_or_app. left; exact J. }
  destruct (parse_line l) as [[nm v]|] eqn:P.
  - destruct (in_dec ascii_dec "#"%char nm) as [I|I].
    + assert (P' : parse_line l' = None).
      { destruct (parse_line l') as [[nm' v']|] eqn:P'; [|reflexivity]. exfalso.
        pose proof (NH _ _ eq_refl) as N1. apply (without_parse l l' nm' W N1 v') in P'.
        rewrite P in P'. injection P' as -> _. contradiction. }
      rewrite P'.
      assert (E : str_eqb nm (txt "dimension") = false).
      { apply str_eqb_false. intros ->. vm_compute in I. intuition discriminate. }
      rewrite E. cbn [andb]. apply IH; [|exact HN].
      intros n Hn. rewrite lookup_add. destruct (str_eqb nm n) eqn:E2; [|apply HC, Hn].
      apply str_eqb_true in E2. subst. contradiction.
    + pose proof (proj1 (without_parse l l' nm W I v) P) as P'. rewrite P'. apply IH; [apply ADD|exact HN].
  - destruct (parse_line l') as [[nm' v']|] eqn:P'.
    + apply (without_parse l l' nm' W (NH _ _ eq_refl) v') in P'. congruence.
    + apply IH; assumption.
Qed.

(** ** Listing *)
Definition listed (c : config) : Prop := forall n, In n (corder c) <-> lookup (cmap c) n <> None.
Lemma listed_add k v ow c : listed c -> listed (add2map k v ow c).
Proof.
  intros H n. rewrite lookup_add. unfold add2map. pose proof (H k) as Hk. pose proof (H n) as Hn.
  destruct (lookup (cmap c) k) as [o|] eqn:E.
  - destruct (str_eqb k n) eqn:E2.
    + apply str_eqb_true in E2. subst. destruct ow; cbn; rewrite Hn, E; split; congruence.
    + destruct ow; exact Hn.
  - cbn [corder cmap]. rewrite in_app_iff. cbn [In]. destruct (str_eqb k n) eqn:E2.
    + apply str_eqb_true in E2. split; [discriminate|intros _; right; left; exact E2].
    + apply str_eqb_false in E2. rewrite Hn. tauto.
Qed.
Definition occ_step (acc : list str) (n : str) : list str :=
  if in_dec (list_eq_dec ascii_dec) n acc then acc else (acc ++ [n])%list.
Lemma order_add k v ow c : listed c -> corder (add2map k v ow c) = occ_step (corder c) k.
Proof.
  intros H. pose proof (H k) as Hk. unfold add2map, occ_step.
  destruct (lookup (cmap c) k) as [o|] eqn:E; destruct (in_dec (list_eq_dec ascii_dec) k (corder c)) as [I|I]; cbn.
  - destruct ow; reflexivity.
  - exfalso. apply I, Hk. discriminate.
  - exfalso. apply Hk in I. congruence.
  - reflexivity.
Qed.
Lemma listed_read ls ow flag c : listed c -> listed (read_lines ls ow flag c).
Proof.
  revert flag c. induction ls as [|l ls IH]; intros flag c H; [exact H|]. cbn [read_lines].
  destruct (parse_line l) as [[nm v]|]; apply IH; [apply listed_add|]; exact H.
Qed.
Lemma order_read ls ns : line_names ls ns -> forall ow flag c, listed c ->
  corder (read_lines ls ow flag c) = fold_left occ_step ns (corder c).
Proof.
  induction 1 as [|l ls ns HS _ IH|n r ls ns H1 H2 _ IH]; intros ow flag c H; [reflexivity| |]; cbn [read_lines fold_left].
  - apply parse_none in HS. rewrite HS. apply IH, H.
  - destruct (parse_line (n ++ "="%char :: r)) as [[nm v]|] eqn:P.
    + assert (E : nm = lower n).
      { clear - P H1. unfold parse_line in P. rewrite find_app in P by exact H1.
        rewrite firstn_exact in P. destruct (find_char "#"%char (n ++ "="%char :: r)) as [[|p]|]; cbn in P; congruence. }
      subst nm. rewrite IH by (apply listed_add, H). rewrite order_add by exact H. reflexivity.
    + exfalso. apply parse_none in P. destruct P as [P|(q & P)].
      * apply P, in_or_app. right. left. reflexivity.
      * destruct n as [|d n]; [discriminate|]. cbn in P. injection P as -> _. exact (H2 n eq_refl).
Qed.
Lemma line_names_total ls : exists ns, line_names ls ns.
Proof.
  induction ls as [|l ls (ns & IH)]; [exists []; constructor|].
  destruct (parse_line l) as [[nm v]|] eqn:P.
  - destruct (parse_shape _ _ _ P) as (n & r & -> & _ & H1 & H2). exists (lower n :: ns). constructor; assumption.
  - exists ns. constructor; [apply parse_none, P|exact IH].
Qed.
Lemma occ_nodup ns acc : NoDup acc -> NoDup (fold_left occ_step ns acc).
Proof.
  revert acc. induction ns as [|n ns IH]; intros acc H; [exact H|]. cbn. apply IH. unfold occ_step.
  destruct (in_dec (list_eq_dec ascii_dec) n acc) as [I|I]; [exact H|].
  clear IH. induction acc as [|a acc IHa]; cbn; [repeat constructor; intros []|].
  apply NoDup_cons_iff in H. destruct H as [Ha H]. constructor.
  - rewrite in_app_iff. cbn. intros [J|[->|[]]]; [contradiction|]. apply I. left. reflexivity.
  - apply IHa; [exact H|]. intros J. apply I. right. exact J.
Qed.
Lemma occ_app ns ms acc : fold_left occ_step (ns ++ ms) acc = fold_left occ_step ms (fold_left occ_step ns acc).
Proof. apply fold_left_app. Qed.
