(** C179: the factory of the source-receiver classes. *)
From Coq Require Import Ascii String.
From Verif Require Import Base M_Prog M_Solvers M_Wave M_Model M_ModelEM M_Acq M_Conf S_Conf L_Conf M_Factory S_Factory M_SRFactory P_Factory.
Open Scope Z_scope.

(** The names of the simulations and the class for them, as in the user's view. *)
Definition sr_table : list (string * string * srclass) :=
  [ ("2D", "acoustic", SR2Dacoustic); ("2D", "elastic", SR2Delastic); ("2D", "viscoelastic", SR2Delastic);
    ("2D", "sh", SR2Dsh); ("2D", "viscosh", SR2Dsh); ("2D", "emem", SR2Demem); ("2D", "viscoemem", SR2Demem);
    ("2D", "tmem", SR2Dtmem); ("2D", "viscotmem", SR2Dtmem); ("3D", "acoustic", SR3Dacoustic);
    ("3D", "elastic", SR3Delastic); ("3D", "viscoelastic", SR3Delastic); ("3D", "emem", SR3Demem);
    ("3D", "viscoemem", SR3Demem) ]%string.

Lemma sr_cases dimension type : 
  (exists d t c, In (d, t, c) sr_table /\ names dimension type d t /\ create_sr dimension type = Ok (Some c)) \/
  (exists t, In t only2D /\ names dimension type "3D" t /\ create_sr dimension type = Ok None) \/
  (create_sr dimension type = Throw /\ (forall d t c, In (d, t, c) sr_table -> ~ names dimension type d t) /\
   (forall t, In t only2D -> ~ names dimension type "3D" t)).
Proof.
  destruct (known_type (lower type)) eqn:K.
  2:{ right. right. assert (N : forall t : string, In (lower (txt t)) (map txt ["acoustic"; "elastic"; "viscoelastic"; "sh"; "viscosh"; "emem"; "tmem"; "viscoemem"; "viscotmem"]%string) ->
        ~ same_name type (txt t)).
      { intros t Ht Hs. apply lower_same in Hs. rewrite <- Hs in Ht. apply known_names in Ht. congruence. }
      split; [|split].
      - unfold create_sr. rewrite K. destruct (str_eqb (lower dimension) (txt "2d")), (str_eqb (lower dimension) (txt "3d")); reflexivity.
      - intros d t c Hin [_ Hs]. unfold sr_table in Hin. cbn [In] in Hin.
        repeat (destruct Hin as [Hin|Hin]; [injection Hin as <- <- <-; revert Hs; apply N; vm_compute; tauto|]). destruct Hin.
      - intros t Hin [_ Hs]. unfold only2D in Hin. cbn [In] in Hin.
        destruct Hin as [<-|[<-|[<-|[<-|[]]]]]; revert Hs; apply N; vm_compute; tauto. }
  apply known_names in K. cbn [map In] in K.
  destruct (list_eq_dec ascii_dec (lower dimension) (txt "2d")) as [E|E];
    [|destruct (list_eq_dec ascii_dec (lower dimension) (txt "3d")) as [G|G]].
  3:{ right. right. split; [|split].
      - unfold create_sr. rewrite (proj2 (str_eqb_false _ _) E), (proj2 (str_eqb_false _ _) G). reflexivity.
      - intros d t c Hin [Hs _]. apply lower_same in Hs. unfold sr_table in Hin. cbn [In] in Hin.
        repeat (destruct Hin as [Hin|Hin]; [injection Hin as <- <- <-; first [apply E; exact Hs|apply G; exact Hs]|]). destruct Hin.
      - intros t _ [Hs _]. apply lower_same in Hs. apply G. exact Hs. }
  - assert (R : exists t c, In ("2D"%string, t, c) sr_table /\ lower type = txt t /\ create_sr dimension type = Ok (Some c) /\ lower (txt t) = txt t).
    { unfold create_sr. rewrite E.
      destruct K as [K|[K|[K|[K|[K|[K|[K|[K|[K|[]]]]]]]]]]; rewrite <- K; do 2 eexists;
        (split; [|split; [reflexivity|split; reflexivity]]); unfold sr_table; cbn [In]; tauto. }
    destruct R as (t & c & R1 & R2 & R3 & R4). left. exists "2D"%string, t, c. split; [exact R1|]. split; [|exact R3].
    split; apply lower_same; [exact E|congruence].
  - assert (T : same_name dimension (txt "3D")) by (apply lower_same; exact G).
    unfold create_sr. rewrite G. unfold names.
    destruct K as [K|[K|[K|[K|[K|[K|[K|[K|[K|[]]]]]]]]]]; rewrite <- K.
    + left. exists "3D"%string, "acoustic"%string, SR3Dacoustic. split; [unfold sr_table; cbn [In]; tauto|].
      split; [split; [exact T|apply lower_same; symmetry; exact K]|reflexivity].
    + left. exists "3D"%string, "elastic"%string, SR3Delastic. split; [unfold sr_table; cbn [In]; tauto|].
      split; [split; [exact T|apply lower_same; symmetry; exact K]|reflexivity].
    + left. exists "3D"%string, "viscoelastic"%string, SR3Delastic. split; [unfold sr_table; cbn [In]; tauto|].
      split; [split; [exact T|apply lower_same; symmetry; exact K]|reflexivity].
    + right. left. exists "sh"%string. split; [cbn; tauto|].
      split; [split; [exact T|apply lower_same; symmetry; exact K]|reflexivity].
    + right. left. exists "viscosh"%string. split; [cbn; tauto|].
      split; [split; [exact T|apply lower_same; symmetry; exact K]|reflexivity].
    + left. exists "3D"%string, "emem"%string, SR3Demem. split; [unfold sr_table; cbn [In]; tauto|].
      split; [split; [exact T|apply lower_same; symmetry; exact K]|reflexivity].
    + right. left. exists "tmem"%string. split; [cbn; tauto|].
      split; [split; [exact T|apply lower_same; symmetry; exact K]|reflexivity].
    + left. exists "3D"%string, "viscoemem"%string, SR3Demem. split; [unfold sr_table; cbn [In]; tauto|].
      split; [split; [exact T|apply lower_same; symmetry; exact K]|reflexivity].
    + right. left. exists "viscotmem"%string. split; [cbn; tauto|].
      split; [split; [exact T|apply lower_same; symmetry; exact K]|reflexivity].
Qed.

Lemma sr_det dimension type d t c : In (d, t, c) sr_table -> names dimension type d t -> create_sr dimension type = Ok (Some c).
Proof.
  intros Hin [Hd Ht]. apply lower_same in Hd, Ht. unfold create_sr. rewrite Hd, Ht.
  unfold sr_table in Hin. cbn [In] in Hin.
  repeat (destruct Hin as [Hin|Hin]; [injection Hin as <- <- <-; reflexivity|]). destruct Hin.
Qed.
Lemma sr_null dimension type t : In t only2D -> names dimension type "3D" t -> create_sr dimension type = Ok None.
Proof.
  intros Hin [Hd Ht]. apply lower_same in Hd, Ht. unfold create_sr. rewrite Hd, Ht.
  unfold only2D in Hin. cbn [In] in Hin. destruct Hin as [<-|[<-|[<-|[<-|[]]]]]; reflexivity.
Qed.

(** The class of the table for the names of the table in any letter case, a null pointer for the equations that exist
    in two dimensions only, an exception for every other text. *)
Theorem C179_class : forall dimension type,
  (forall c, create_sr dimension type = Ok (Some c) <-> exists d t, In (d, t, c) sr_table /\ names dimension type d t) /\
  (create_sr dimension type = Ok None <-> exists t, In t only2D /\ names dimension type "3D" t) /\
  (create_sr dimension type = Throw <-> (forall d t c, In (d, t, c) sr_table -> ~ names dimension type d t) /\
     (forall t, In t only2D -> ~ names dimension type "3D" t)).
Proof.
  intros dimension type. split; [|split].
  - intros c. split.
    + intros H. destruct (sr_cases dimension type) as [(d & t & c' & H1 & H2 & H3)|[(t & _ & _ & H3)|(H3 & _)]];
        rewrite H in H3; try discriminate. injection H3 as <-. exists d, t. auto.
    + intros (d & t & H1 & H2). apply (sr_det _ _ d t c H1 H2).
  - split.
    + intros H. destruct (sr_cases dimension type) as [(d & t & c' & _ & _ & H3)|[(t & H1 & H2 & _)|(H3 & _)]];
        try (rewrite H in H3; discriminate). exists t. auto.
    + intros (t & H1 & H2). apply (sr_null _ _ t H1 H2).
  - split.
    + intros H. destruct (sr_cases dimension type) as [(d & t & c' & _ & _ & H3)|[(t & _ & _ & H3)|(_ & H1 & H2)]];
        try (rewrite H in H3; discriminate). auto.
    + intros [H1 H2]. destruct (sr_cases dimension type) as [(d & t & c' & K1 & K2 & _)|[(t & K1 & K2 & _)|(H3 & _)]];
        [destruct (H1 d t c' K1 K2)|destruct (H2 t K1 K2)|exact H3].
Qed.
Print Assumptions C179_class.

(** The factory agrees with the solvers: whenever the objects of a simulation can be created, it gives the class that
    the solver of that simulation uses in run; where they cannot, it gives none. *)
Theorem C179_agrees : forall dimension type,
  (forall o, startup dimension type = Ok o -> create_sr dimension type = Ok (Some (run_sr (o_wave o)))) /\
  (forall c, create_sr dimension type = Ok (Some c) -> exists o, startup dimension type = Ok o /\ run_sr (o_wave o) = c) /\
  (startup dimension type = UB <-> create_sr dimension type = Ok None).
Proof.
  intros dimension type.
  assert (A : forall o, startup dimension type = Ok o -> create_sr dimension type = Ok (Some (run_sr (o_wave o)))).
  { intros o H. apply C157_classes in H. destruct H as (d & t & Hin & Hd & Ht). apply lower_same in Hd, Ht.
    unfold create_sr. rewrite Hd, Ht. unfold table in Hin. cbn [In] in Hin.
    repeat (destruct Hin as [Hin|Hin]; [injection Hin as <- <- <-; reflexivity|]). destruct Hin. }
  split; [exact A|]. split.
  - intros c H. assert (S : exists o, startup dimension type = Ok o).
    { apply C179_class in H. destruct H as (d & t & Hin & Hn). unfold sr_table in Hin. cbn [In] in Hin.
      repeat (destruct Hin as [Hin|Hin]; [injection Hin as <- <- <-; eexists; apply C157_classes; do 2 eexists;
        split; [|exact Hn]; unfold table; cbn [In]; repeat first [left; reflexivity|right]|]). destruct Hin. }
    destruct S as [o Ho]. exists o. split; [exact Ho|]. rewrite (A o Ho) in H. injection H as H. exact H.
  - rewrite (proj1 (C157_rejected dimension type)). symmetry. apply C179_class.
Qed.
Print Assumptions C179_agrees.

Example C179_ex : create_sr (txt "3D") (txt "ViscoElastic") = Ok (Some SR3Delastic) /\
  create_sr (txt "3D") (txt "sh") = Ok None /\ create_sr (txt "2D") (txt "viscoacoustic") = Throw /\
  exists o, startup (txt "2d") (txt "viscoTMEM") = Ok o /\ run_sr (o_wave o) = SR2Dtmem.
Proof. repeat split. eexists. split; vm_compute; reflexivity. Qed.
