(** Specification vocabulary for the derived model parameters; does not mention the model of the code. *)
From Coq Require Import Reals.
From Verif Require Import Base.
Local Open Scope R_scope.

(** The modulus rho v^2 at every point. *)
Definition elastic_modulus (v rho m : list R) : Prop :=
  length rho = length v /\ length m = length v /\
  forall i, (i < length v)%nat -> nth i m 0 = nth i rho 0 * (nth i v 0) ^ 2.

(** Sum of (fc/f)^2 / (1 + (fc/f)^2) over the relaxation frequencies f; fc is the centre frequency. *)
Definition relaxation (fc : R) (fs : list R) : R := fold_right Rplus 0 (map (fun f => (fc / f) ^ 2 / (1 + (fc / f) ^ 2)) fs).
(** The relaxed modulus rho v^2 / (1 + tau * relaxation) at every point where this is defined. *)
Definition relaxed_modulus (fc : R) (fs tau v rho m : list R) : Prop :=
  length rho = length v /\ length tau = length v /\ length m = length v /\
  forall i, (i < length v)%nat -> 1 + nth i tau 0 * relaxation fc fs <> 0 ->
    nth i m 0 * (1 + nth i tau 0 * relaxation fc fs) = nth i rho 0 * (nth i v 0) ^ 2.

(** Weighted mean of a field. *)
Definition mean (r : list (Z * R)) (v : list R) : R := fold_right Rplus 0 (map (fun e => snd e * nth (Z.to_nat (fst e)) v 0) r).
Definition rows_give (rows : list (list (Z * R))) (a : list R) (f : list (Z * R) -> R) : Prop :=
  length a = length rows /\ forall i r, nth_error rows i = Some r -> nth i a 0 = f r.
(** Inverse of the mean density, zero where the mean density is zero. *)
Definition inverse_average (rows : list (list (Z * R))) (rho a : list R) : Prop :=
  rows_give rows a (fun r => if Req_EM_T (mean r rho) 0 then 0 else 1 / mean r rho).
(** Harmonic mean of the moduli raised to at least 1; means below 4 become 0. *)
Definition shear_average (rows : list (list (Z * R))) (mu a : list R) : Prop :=
  rows_give rows a (fun r => let h := 1 / mean r (map (fun x => 1 / Rmax 1 x) mu) in if Rlt_dec h 4 then 0 else h).
Definition plain_average (rows : list (list (Z * R))) (v a : list R) : Prop := rows_give rows a (fun r => mean r v).
