(** Vocabulary for C101: float32 numbers (IEEE 754 binary32), after Flocq. *)
From Coq Require Import ZArith QArith Reals Qreals.
From Flocq Require Import Core.
From Verif Require Import Model.Num Model.Base Model.Filter Model.Tracker Spec.CallSpec Spec.PhasesSpec.
Local Open Scope R_scope.

(** The nearest number with a significand of 24 bits that is a multiple of 2^-149; of two, the one with even significand. *)
Definition float32_nearest (x : R) : R := round radix2 (FLT_exp (-149) 24) ZnearestE x.
(** What is stored for [x]: this number, or infinity if it is 2^128 or more. *)
Definition stored_as (x : R) (d : dval QNum) : Prop :=
  match d with
  | DFin q => Rabs (float32_nearest x) < bpow radix2 128 /\ Q2R q = float32_nearest x
  | DPInf => bpow radix2 128 <= float32_nearest x
  | DNInf => float32_nearest x <= - bpow radix2 128
  | DNaN => False
  end.
(** float32 numbers: m * 2^e with |m| < 2^24 and e >= -149, below 2^128. *)
Definition float32 (x : R) : Prop := exists m e : Z, x = IZR m * powerRZ 2 e /\ (Z.abs m < 2 ^ 24)%Z /\ (-149 <= e)%Z /\ Rabs x < powerRZ 2 128.

(** Object [i], with detection [r] for its new one, remembers in [s'] what is stored for the distance that the function [f] gave
    in a state [s1] which shows [i] as it is in [s0] and the detections as they are in [s0] up to their attribute age. *)
Definition remembers {FO : filter_ops QNum} (f : cview FO -> oview FO -> result (dval QNum)) (s0 s' : st FO) (r i : nat) : Prop :=
  exists (s1 : st FO) (x : dval QNum), s_store s1 i = s_store s0 i /\ (forall d, upto_age (s_heap s0 d) (s_heap s1 d)) /\
    f (VDet (s_heap s1 r)) (view_obj s1 i) = Ret x /\
    match x with
    | DFin q => exists v, last_distance s' i = Some v /\ stored_as (Q2R q) v
    | _ => last_distance s' i = Some x
    end.
