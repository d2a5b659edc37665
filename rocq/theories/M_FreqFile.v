(** Sources::writeSourceFC, Acquisition/Sources.cpp 800-847: the file of the frequencies, without its name and the
    formatting, on the master with gradientDomain != 0. *)
From Verif Require Import Base M_Grid M_Acq.
Open Scope Z_scope.

Section File.
  Context {F : Type}.

  (** The lines of an encoding, 837-844. *)
  Fixpoint fc_lines (nos : list Z) (l : list (source F)) (n : nat) (k : Z) : res (list (Z * list F)) :=
    match n with
    | O => Ok []
    | S n => no <- vget nos k ;; rest <- fc_lines nos l n (k + 1) ;;
             Ok ((no, map fc (filter (fun s => Z.abs (sourceNo s) =? no) l)) :: rest)
    end.
  (** [all] = sourceSettingsShotIncr, [l] = sourceSettingsEncode, [numshots] = shotIndsIncr.size(), [fcs] = sourceFC.
      sourceFC[0] (line 809) and sourceSettingsShotIncr[0] (line 827) of an empty vector are undefined behaviour. *)
  Definition writeSourceFC (encode : bool) (all l : list (source F)) (numshots dom : Z) (fcs : list (list F))
    : res (list (Z * list F)) :=
    first <- vget fcs 0 ;;
    if encode then
      nos <- calcuniqueShotNo l ;;
      if negb (Z.of_nat (List.length l) =? numshots) then Throw else fc_lines nos l (Z.to_nat dom) 0
    else
      s <- vget all 0 ;; Ok [(sourceNo s, first)].
End File.
