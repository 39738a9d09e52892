(** IEEE binary32 round-to-nearest-even of rationals: what numpy does when a number is stored in a
    float32 array (np.full(..., dtype=np.float32) in distances.py:87-91 and 146-150, and the writes
    distances.py:101, 182 and tracker.py:379-380). *)
From Coq Require Import ZArith QArith Bool List.
From Verif Require Import Model.Num.

Local Open Scope Z_scope.

(** floor(log2 |n/d|) for n <> 0. *)
Definition floor_log2 (n : Z) (d : positive) : Z :=
  let e := Z.log2 (Z.abs n) - Z.log2 (Zpos d) in
  (* |n|/d < 2^e ? *)
  let less := if 0 <=? e then Z.abs n <? Zpos d * 2 ^ e else Z.abs n * 2 ^ (- e) <? Zpos d in
  if less then e - 1 else e.

(** Exponent of the unit in the last place: 24 bit significand, subnormals below 2^-126. *)
Definition ulp_exp (n : Z) (d : positive) : Z := Z.max (floor_log2 n d - 23) (-149).

(** Nearest integer to a/b (b > 0), ties to even. *)
Definition div_half_even (a b : Z) : Z :=
  let q := a / b in
  let r := a mod b in
  match Z.compare (2 * r) b with
  | Lt => q
  | Gt => q + 1
  | Eq => if Z.even q then q else q + 1
  end.

(** n/d rounded to a multiple m * 2^k: the pair (m, k). *)
Definition round32_parts (n : Z) (d : positive) : Z * Z :=
  let k := ulp_exp n d in
  (if 0 <=? k then div_half_even n (Zpos d * 2 ^ k) else div_half_even (n * 2 ^ (- k)) (Zpos d), k).

Definition scale2 (m k : Z) : Q :=
  if 0 <=? k then inject_Z (m * 2 ^ k) else m # (Z.to_pos (2 ^ (- k))).

Definition round32Q (q : Q) : dval QNum :=
  let n := Qnum q in let d := Qden q in
  if n =? 0 then DFin (0 : QNum)%Q
  else
    let (m, k) := round32_parts n d in
    let r := scale2 m k in
    if Qle_bool (inject_Z (2 ^ 128)) r then DPInf
    else if Qle_bool r (inject_Z (- 2 ^ 128)) then DNInf
    else DFin (r : QNum).

Definition round32 (x : dval QNum) : dval QNum :=
  match x with DFin q => round32Q q | other => other end.
