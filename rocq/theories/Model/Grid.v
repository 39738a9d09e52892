(** norfair/drawing/absolute_grid.py:11-47 [_get_grid], over the real numbers. *)
From Coq Require Import ZArith Reals List.
From Verif Require Import Model.Base.
Import ListNotations.
Local Open Scope R_scope.

(** The least integer not below [x] ([math.ceil]). *)
Definition ceilR (x : R) : Z := (1 - up (- x))%Z.
(** One axis of [np.mgrid[start:end:step]]: ceil((end - start) / step) values. *)
Definition mgrid (start stop step : R) : list R :=
  map (fun k => INR k * step + start) (seq 0 (Z.to_nat (ceilR ((stop - start) / step)))).

(** absolute_grid.py:11-47: rows (x, y); the first angle changes slowest.  [np.pi / 0] raises ZeroDivisionError.
    SIMPLIFICATION: the size is not negative.  The cache is in Model/GridCache.v. *)
Definition get_grid (size : nat) (w h : Z) (polar : bool) : result (list (R * R)) :=
  match size with
  | O => Raise EZeroDivisionError
  | S _ =>
    let step := PI / INR size in
    let angles := mgrid (- PI / 2 + step / 2) (PI / 2) step in
    let xy (theta fi : R) := if polar then (tan theta * cos fi, tan theta * sin fi) else (tan fi, tan theta / cos fi) in
    Ret (flat_map (fun theta => map (fun fi =>
      let '(x, y) := xy theta fi in (x * IZR (Z.max h w) + IZR (w / 2), y * IZR (Z.max h w) + IZR (h / 2))) angles) angles)
  end.
