(** Configuration files: C46, C47, C74, C75. *)
From Coq Require Import Ascii String.
From Verif Require Import Base M_Acq S_Acq L_AcqFile M_Conf S_Conf L_Conf.
Open Scope Z_scope.
Local Notation length := List.length.

(** ** C46, constructor: the value of the last line defining the name (not the special case of NZ). *)
Theorem C46_constructor_partial : forall T (conv : str -> T) content name v, plain name ->
  last_definition (getlines content) name v ->
  ~ same_name name (txt "nz") \/ ~ two_dimensional (getlines content) ->
  get conv (fromFile content) name = Ok (conv v) /\
  forall d, getAndCatch conv (fromFile content) name d = conv v.
Proof.
  intros T conv content name v HP (before & l & after & n & E & D & Hn & HA) HS.
  assert (L : lookup (cmap (fromFile content)) (lower name) = Some v).
  { unfold fromFile, readFromFile. rewrite E.
    rewrite (read_overwrite before l after empty_config name n v false HP D Hn HA). unfold given.
    destruct (str_eqb (lower name) (txt "nz")) eqn:EZ; [|reflexivity]. cbn [andb].
    apply str_eqb_true in EZ. change (txt "nz") with (lower (txt "nz")) in EZ. apply lower_same in EZ.
    destruct HS as [HS|HS]; [contradiction|].
    destruct (flag_after false before) eqn:F; [|reflexivity]. apply flag_true in F.
    destruct F as [F|(l' & n' & I & F)]; [discriminate|]. exfalso. apply HS. exists l', n'. split; [|exact F].
    rewrite E. apply in_or_app. left. exact I. }
  unfold get, getAndCatch. rewrite L. split; reflexivity.
Qed.
Print Assumptions C46_constructor_partial.

(** A missing name is an error, or yields the given default. *)
Theorem C46_missing_partial : forall T (conv : str -> T) content name d, plain name ->
  no_definition (getlines content) name ->
  get conv (fromFile content) name = Throw /\ getAndCatch conv (fromFile content) name d = d.
Proof.
  intros T conv content name d HP HN. unfold get, getAndCatch, fromFile, readFromFile.
  rewrite (read_other _ _ _ _ _ HP HN). split; reflexivity.
Qed.
Print Assumptions C46_missing_partial.

(** Reading a second file without asking for overwriting keeps the first value. *)
Theorem C46_reread_refuted : exists c1 c2 name v1 v2, plain name /\ v1 <> v2 /\
  last_definition (getlines c1) name v1 /\ last_definition (getlines c2) name v2 /\
  get (fun v => v) (history [Read c1 true; Read c2 false]) name = Ok v1.
Proof.
  exists (txt "a=1"), (txt "A=2"), (txt "a"), (txt "1"), (txt "2").
  split; [split; vm_compute; intuition discriminate|]. split; [vm_compute; discriminate|].
  split; [|split]; [| |vm_compute; reflexivity].
  - exists [], (txt "a=1"), [], (txt "a"). split; [vm_compute; reflexivity|]. split; [|split].
    + split; [vm_compute; intuition discriminate|]. split; [vm_compute; intuition discriminate|].
      split; [vm_compute; intuition discriminate|]. exists []. split; [reflexivity|left; reflexivity].
    + repeat constructor.
    + intros l' n' v' [].
  - exists [], (txt "A=2"), [], (txt "A"). split; [vm_compute; reflexivity|]. split; [|split].
    + split; [vm_compute; intuition discriminate|]. split; [vm_compute; intuition discriminate|].
      split; [vm_compute; intuition discriminate|]. exists []. split; [reflexivity|left; reflexivity].
    + constructor; [|constructor]. apply (sl_up 0). lia.
    + intros l' n' v' [].
Qed.
Print Assumptions C46_reread_refuted.

(** The parameter NZ does not have the value of the last line defining it. *)
Theorem C46_nz_refuted : exists content name v, plain name /\ last_definition (getlines content) name v /\
  exists v', v' <> v /\ get (fun v => v) (fromFile content) name = Ok v'.
Proof.
  exists (txt "dimension=2D              " ++ [nl] ++ txt "nz=5")%list, (txt "nz"), (txt "5").
  split; [split; vm_compute; intuition discriminate|]. split.
  - exists [txt "dimension=2D              "], (txt "nz=5"), [], (txt "nz").
    split; [vm_compute; reflexivity|]. split; [|split].
    + split; [vm_compute; intuition discriminate|]. split; [vm_compute; intuition discriminate|].
      split; [vm_compute; intuition discriminate|]. exists []. split; [reflexivity|left; reflexivity].
    + repeat constructor.
    + intros l' n' v' [].
  - exists (txt "1"). split; [vm_compute; discriminate|]. vm_compute. reflexivity.
Qed.
Print Assumptions C46_nz_refuted.

(** ** C74: the exact rule, for every history. *)
Lemma given_plain name before v : ~ (same_name name (txt "nz") /\ two_dimensional before) -> given before false name v = v.
Proof.
  intros H. unfold given. destruct (str_eqb (lower name) (txt "nz")) eqn:E; [|reflexivity]. cbn [andb].
  destruct (flag_after false before) eqn:F; [|reflexivity]. exfalso. apply H. split.
  - apply str_eqb_true in E. apply lower_same. exact E.
  - apply flag_true in F. destruct F as [F|F]; [discriminate|exact F].
Qed.
Lemma given_nz name before v : same_name name (txt "nz") -> two_dimensional before -> given before false name v = txt "1".
Proof.
  intros H F. unfold given. apply lower_same in H. rewrite H.
  assert (E : flag_after false before = true) by (apply flag_true; right; exact F). rewrite E. reflexivity.
Qed.

Lemma effect_step name k o o' c : plain name -> effect name k o o' -> lookup (cmap c) (lower name) = o ->
  lookup (cmap (do_call c k)) (lower name) = o'.
Proof.
  intros HP H Ho. destruct H; cbn [do_call]; unfold add2config, readFromFile.
  - rewrite lookup_add. apply lower_same in H. rewrite H, str_eqb_refl, Ho. destruct o as [x|]; [destruct ow|]; reflexivity.
  - rewrite lookup_add. destruct (str_eqb (lower k) (lower name)) eqn:E; [|exact Ho].
    apply str_eqb_true, lower_same in E. contradiction.
  - rewrite read_other by assumption. exact Ho.
  - rewrite H. rewrite (read_overwrite before l after c name n v false HP H0 H1 H2). rewrite given_plain by assumption. reflexivity.
  - rewrite H. rewrite (read_first before l after c name n v false HP H0 H1 H2 Ho). rewrite given_plain by assumption. reflexivity.
  - apply read_keep; assumption.
  - rewrite H. rewrite (read_overwrite before l after c name n v false HP H0 H1 H2). rewrite given_nz by assumption. reflexivity.
  - rewrite H. rewrite (read_first before l after c name n v false HP H0 H1 H2 Ho). rewrite given_nz by assumption. reflexivity.
Qed.

Theorem C74_history : forall T (conv : str -> T) ks name o, plain name -> effects name ks o ->
  match o with
  | Some v => get conv (history ks) name = Ok (conv v) /\ forall d, getAndCatch conv (history ks) name d = conv v
  | None => get conv (history ks) name = Throw /\ forall d, getAndCatch conv (history ks) name d = d
  end.
Proof.
  intros T conv ks name o HP H.
  assert (L : lookup (cmap (history ks)) (lower name) = o).
  { induction H as [|ks k o o' _ IH HE]; [reflexivity|].
    unfold history in *. rewrite fold_left_app. cbn [fold_left]. exact (effect_step name k o o' _ HP HE IH). }
  unfold get, getAndCatch. rewrite L. destruct o; split; reflexivity.
Qed.
Print Assumptions C74_history.

(** The rule always says something: every history has a result. *)
Lemma same_name_dec a b : {same_name a b} + {~ same_name a b}.
Proof.
  destruct (list_eq_dec ascii_dec (lower a) (lower b)) as [E|E].
  - left. apply lower_same, E.
  - right. intros H. apply E, lower_same, H.
Qed.
Lemma line_dec l name : plain name -> (exists n v, defines l n v /\ same_name n name) \/ (forall n v, defines l n v -> ~ same_name n name).
Proof.
  intros HP. destruct (parse_line l) as [[nm v]|] eqn:P.
  - destruct (list_eq_dec ascii_dec nm (lower name)) as [E|E].
    + left. destruct (parse_defines l nm v P) as (n & D & En). { rewrite E, lower_hash. apply HP. }
      exists n, v. split; [exact D|]. apply lower_same. congruence.
    + right. intros n w D Hn. rewrite (defines_parse _ _ _ D) in P. injection P as <- <-. apply E, lower_same, Hn.
  - right. intros n v D. rewrite (defines_parse _ _ _ D) in P. discriminate.
Qed.
Lemma last_split ls name : plain name -> no_definition ls name \/
  exists before l after n v, ls = (before ++ l :: after)%list /\ defines l n v /\ same_name n name /\ no_definition after name.
Proof.
  intros HP. induction ls as [|l ls IH]; [left; intros l n v []|].
  destruct IH as [IH|(b & l' & a & n & v & -> & D & Hn & HA)].
  - destruct (line_dec l name HP) as [(n & v & D & Hn)|H].
    + right. exists [], l, ls, n, v. repeat split; try exact Hn; try apply D. exact IH.
    + left. intros l' n v [<-|I] D; [apply (H n v D)|apply (IH l' n v I D)].
  - right. exists (l :: b), l', a, n, v. split; [reflexivity|]. split; [exact D|]. split; assumption.
Qed.
Lemma first_split ls name : plain name -> no_definition ls name \/
  exists before l after n v, ls = (before ++ l :: after)%list /\ defines l n v /\ same_name n name /\ no_definition before name.
Proof.
  intros HP. induction ls as [|l ls IH]; [left; intros l n v []|].
  destruct (line_dec l name HP) as [(n & v & D & Hn)|H].
  - right. exists [], l, ls, n, v. split; [reflexivity|]. split; [exact D|]. split; [exact Hn|]. intros l' n' v' [].
  - destruct IH as [IH|(b & l' & a & n & v & -> & D & Hn & HA)].
    + left. intros l' n v [<-|I] D; [apply (H n v D)|apply (IH l' n v I D)].
    + right. exists (l :: b), l', a, n, v. split; [reflexivity|]. split; [exact D|]. split; [exact Hn|].
      intros l2 n2 v2 [<-|I] D2; [apply (H n2 v2 D2)|apply (HA l2 n2 v2 I D2)].
Qed.
Lemma two_dec before : two_dimensional before \/ ~ two_dimensional before.
Proof.
  destruct (flag_after false before) eqn:F.
  - left. apply flag_true in F. destruct F as [F|F]; [discriminate|exact F].
  - right. intros H. assert (E : flag_after false before = true) by (apply flag_true; right; exact H). congruence.
Qed.
Theorem C74_total : forall ks name, plain name -> exists o, effects name ks o.
Proof.
  intros ks name HP. induction ks as [|k ks (o & IH)] using rev_ind; [exists None; constructor|].
  assert (S : exists o', effect name k o o').
  { destruct k as [content [|]|key v ow].
    - destruct (last_split (getlines content) name HP) as [H|(b & l & a & n & v & E & D & Hn & HA)].
      + exists o. apply ef_read_none, H.
      + destruct (same_name_dec name (txt "nz")) as [Z|Z]; [destruct (two_dec b) as [F|F]|].
        * exists (Some (txt "1")). eapply ef_nz_last; eassumption.
        * exists (Some v). eapply ef_read_last; try eassumption. tauto.
        * exists (Some v). eapply ef_read_last; try eassumption. tauto.
    - destruct o as [o|]; [exists (Some o); apply ef_read_keep|].
      destruct (first_split (getlines content) name HP) as [H|(b & l & a & n & v & E & D & Hn & HA)].
      + exists None. apply ef_read_none, H.
      + destruct (same_name_dec name (txt "nz")) as [Z|Z]; [destruct (two_dec b) as [F|F]|].
        * exists (Some (txt "1")). eapply ef_nz_first; eassumption.
        * exists (Some v). eapply ef_read_first; try eassumption. tauto.
        * exists (Some v). eapply ef_read_first; try eassumption. tauto.
    - destruct (same_name_dec key name) as [E|E].
      + eexists. apply ef_add, E.
      + exists o. apply ef_add_other, E. }
  destruct S as (o' & S). exists o'. eapply efs_snoc; eassumption.
Qed.
Print Assumptions C74_total.

(** The listing: each name once, in order of first definition. *)
Theorem C74_listing : forall ks ns, call_names ks ns ->
  corder (history ks) = first_occurrences ns /\ NoDup (corder (history ks)) /\
  forall n, In n (corder (history ks)) <-> lookup (cmap (history ks)) n <> None.
Proof.
  intros ks ns H.
  assert (G : forall c, listed c -> corder (fold_left do_call ks c) = fold_left occ_step ns (corder c) /\ listed (fold_left do_call ks c)).
  { induction H as [|content ow ks ns ms L _ IH|k v ow ks ms _ IH]; intros c HC; cbn [fold_left do_call].
    - split; [reflexivity|exact HC].
    - destruct (IH (readFromFile content ow c)) as [E1 E2]; [apply listed_read, HC|]. split; [|exact E2].
      rewrite E1, fold_left_app. f_equal. apply order_read; assumption.
    - destruct (IH (add2config k v ow c)) as [E1 E2]; [apply listed_add, HC|]. split; [|exact E2].
      rewrite E1. f_equal. apply order_add, HC. }
  destruct (G empty_config) as [E1 E2].
  { intros n. cbn. split; [intros []|congruence]. }
  unfold history. split; [exact E1|]. split; [|exact E2]. rewrite E1. apply occ_nodup. constructor.
Qed.
Print Assumptions C74_listing.
Theorem C74_listing_total : forall ks, exists ns, call_names ks ns.
Proof.
  induction ks as [|[content ow|k v ow] ks (ms & IH)]; [exists []; constructor| |].
  - destruct (line_names_total (getlines content)) as (ns & L). exists (ns ++ ms). constructor; assumption.
  - exists (lower k :: ms). constructor. exact IH.
Qed.
(** Reading a name does not depend on letter case. *)
Theorem C74_case : forall T (conv : str -> T) c a b, same_name a b -> get conv c a = get conv c b.
Proof. intros T conv c a b H. unfold get. apply lower_same in H. rewrite H. reflexivity. Qed.
Print Assumptions C74_case.

(** ** C47 *)
Theorem C47_comment_refuted : exists l l' name, without_comment l l' /\
  get (fun v => v) (fromFile l) name = Ok (txt "5") /\ get (fun v => v) (fromFile l') name = Throw.
Proof.
  exists (txt "nx # x=5"), (txt "nx "), (txt "nx # x"). split; [|split; vm_compute; reflexivity].
  split; [vm_compute; intuition discriminate|]. exists (txt "# x=5"). split; [reflexivity|]. right. exists (txt " x=5"). reflexivity.
Qed.
Print Assumptions C47_comment_refuted.

(** ** C75: comments never matter for a name without '#'. *)
Theorem C75_comments : forall T (conv : str -> T) content content' ow c name, ~ In "#"%char name ->
  Forall2 without_comment (getlines content) (getlines content') ->
  get conv (readFromFile content ow c) name = get conv (readFromFile content' ow c) name.
Proof.
  intros T conv content content' ow c name HN F. unfold get, readFromFile.
  rewrite (read_comments _ _ F ow false c c (lower name)); [reflexivity|reflexivity|]. rewrite lower_hash. exact HN.
Qed.
Print Assumptions C75_comments.

(** A line that is a comment from its first character on, or contains no '=', changes nothing at all. *)
Theorem C75_comment_line : forall l before after ow flag c, ((exists r, l = "#"%char :: r) \/ ~ In "="%char l) ->
  read_lines (before ++ l :: after) ow flag c = read_lines (before ++ after) ow flag c.
Proof.
  intros l before after ow flag c H. rewrite !read_app. cbn [read_lines].
  assert (P : parse_line l = None) by (apply parse_none; tauto). rewrite P. reflexivity.
Qed.
Print Assumptions C75_comment_line.

(** Concrete cases. *)
Definition ex_content : str := (txt "NX=10 # size" ++ [nl] ++ txt "# nx=12" ++ [nl] ++ txt "Ny=3" ++ [nl] ++ txt "nX=20")%list.
Example ex_conf1 : get (fun v => v) (fromFile ex_content) (txt "nx") = Ok (txt "20")
  /\ get (fun v => v) (fromFile ex_content) (txt "nz") = Throw
  /\ corder (fromFile ex_content) = [txt "nx"; txt "ny"].
Proof. vm_compute. repeat split. Qed.
Example ex_conf2 : last_definition (getlines ex_content) (txt "NX") (txt "20").
Proof.
  exists [txt "NX=10 # size"; txt "# nx=12"; txt "Ny=3"], (txt "nX=20"), [], (txt "nX").
  split; [vm_compute; reflexivity|]. split; [|split].
  - split; [vm_compute; intuition discriminate|]. split; [vm_compute; intuition discriminate|].
      split; [vm_compute; intuition discriminate|]. exists []. split; [reflexivity|left; reflexivity].
  - constructor; [|constructor; [|constructor]]; [apply (sl_down 13); lia|constructor].
  - intros l' n' v' [].
Qed.
Example ex_conf3 : without_comment (txt "NX=10 # size") (txt "NX=10 ").
Proof.
  split; [vm_compute; intuition discriminate|]. exists (txt "# size"). split; [reflexivity|]. right. exists (txt " size"). reflexivity.
Qed.
