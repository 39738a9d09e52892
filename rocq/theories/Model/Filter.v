(** norfair/filter.py: the filter interface used by [TrackedObject], [NoFilter] and
    [OptimizedKalmanFilter].  The filterpy based filter is modelled in [Model/KalmanMatrix.v]. *)
From Coq Require Import ZArith QArith Bool List Arith.
From Verif Require Import Model.Num Model.Base.
Import ListNotations.

(** What [TrackedObject] uses of a filter (filter.py:7-15 and tracker.py:530,547,597,658,672,682):
    [create_filter], [predict()], [update(z, None, H)] and reads/writes of the column vector [x]
    (positions first, then velocities).  [H] is always [hstack([diag(mask), zeros])]
    (tracker.py:644-657), so it is represented by its diagonal of zeros and ones. *)
Record filter_ops (N : Num) : Type := MkFilter {
  fstate : Type;
  f_create : points N -> fstate;
  f_predict : fstate -> fstate;
  f_update : fstate -> list N -> list N -> fstate;
  f_x : fstate -> list N;
  f_set_x : fstate -> list N -> fstate
}.
Arguments fstate {N} _.
Arguments f_create {N} _ _.
Arguments f_predict {N} _ _.
Arguments f_update {N} _ _ _ _.
Arguments f_x {N} _ _.
Arguments f_set_x {N} _ _ _.

Section Filters.
Context {N : Num}.
Local Open Scope num_scope.

(** filter.py:97-115 [NoFilter].  State: dim_z and x. *)
Record nofilter := MkNoFilter { nf_dim_z : nat; nf_x : list N }.

(** filter.py:134-145. *)
Definition nf_create (initial_detection : points N) : nofilter :=
  let z := flatten initial_detection in
  {| nf_dim_z := length z; nf_x := z ++ repeat n0 (length z) |}.

(** filter.py:102-103. *)
Definition nf_predict (f : nofilter) : nofilter := f.

(** filter.py:105-115 with H given: diag * z + (1 - diag) * x[:dim_z]. *)
Definition nf_update (f : nofilter) (z diagonal : list N) : nofilter :=
  let d := nf_dim_z f in
  let one_minus_diagonal := map (fun m => n1 - m) diagonal in
  let z' := map2 nadd (map2 nmul diagonal z) (map2 nmul one_minus_diagonal (firstn d (nf_x f))) in
  {| nf_dim_z := d; nf_x := z' ++ skipn d (nf_x f) |}.

Definition nofilter_ops : filter_ops N :=
  {| fstate := nofilter; f_create := nf_create; f_predict := nf_predict; f_update := nf_update;
     f_x := nf_x; f_set_x := fun f x => {| nf_dim_z := nf_dim_z f; nf_x := x |} |}.

(** filter.py:148-169 [OptimizedKalmanFilter].  Numpy arrays of shape (dim_z, 1) are lists. *)
Record okf := MkOkf {
  k_dim_z : nat;
  k_x : list N;
  k_pos_variance : list N;
  k_pos_vel_covariance : list N;
  k_vel_variance : list N;
  k_q : N;
  k_default_r : list N
}.

(** filter.py:250-264 factory parameters. *)
Record okf_params := MkOkfParams {
  kp_R : N; kp_Q : N; kp_pos_variance : N; kp_pos_vel_covariance : N; kp_vel_variance : N
}.
(** The defaults of filter.py:250-257. *)
Definition okf_default_params : okf_params :=
  {| kp_R := nofQ 4; kp_Q := nofQ (1 # 10); kp_pos_variance := nofQ 10;
     kp_pos_vel_covariance := nofQ 0; kp_vel_variance := nofQ 1 |}.

(** filter.py:266-283 and 149-169. *)
Definition okf_create (p : okf_params) (initial_detection : points N) : okf :=
  let z := flatten initial_detection in
  let d := length z in
  {| k_dim_z := d; k_x := z ++ repeat n0 d;
     k_pos_variance := repeat (n0 + kp_pos_variance p) d;
     k_pos_vel_covariance := repeat (n0 + kp_pos_vel_covariance p) d;
     k_vel_variance := repeat (n0 + kp_vel_variance p) d;
     k_q := kp_Q p;
     k_default_r := repeat (kp_R p * n1) d |}.

(** filter.py:171-172: positions += velocities; the variances are not touched. *)
Definition okf_predict (f : okf) : okf :=
  let d := k_dim_z f in
  {| k_dim_z := d;
     k_x := map2 nadd (firstn d (k_x f)) (skipn d (k_x f)) ++ skipn d (k_x f);
     k_pos_variance := k_pos_variance f; k_pos_vel_covariance := k_pos_vel_covariance f;
     k_vel_variance := k_vel_variance f; k_q := k_q f; k_default_r := k_default_r f |}.

(** One coordinate of filter.py:174-227 (every numpy operation there is elementwise).
    State of a coordinate: position, velocity, pos_variance, pos_vel_covariance, vel_variance.
    Order of evaluation and association of the sums as in the code. *)
Record coord := MkCoord { c_pos : N; c_vel : N; c_pv : N; c_cov : N; c_vv : N }.

Definition coord_predict (c : coord) : coord :=
  {| c_pos := c_pos c + c_vel c; c_vel := c_vel c; c_pv := c_pv c; c_cov := c_cov c; c_vv := c_vv c |}.

Definition coord_update (q r : N) (c : coord) (z diagonal : N) : coord :=
  let one_minus_diagonal := n1 - diagonal in
  let error := (z - c_pos c) * diagonal in
  let vel_var_plus_pos_vel_cov := c_cov c + c_vv c in
  let added_variances := (((c_pv c + c_cov c) + vel_var_plus_pos_vel_cov) + q) + r in
  let kalman_r_over_added_variances := r / added_variances in
  let vel_var_plus_pos_vel_cov_over_added_variances := vel_var_plus_pos_vel_cov / added_variances in
  let added_variances_or_kalman_r := added_variances * one_minus_diagonal + r * diagonal in
  {| c_pos := c_pos c + diagonal * ((n1 - kalman_r_over_added_variances) * error);
     c_vel := c_vel c + diagonal * (vel_var_plus_pos_vel_cov_over_added_variances * error);
     c_pv := (n1 - kalman_r_over_added_variances) * added_variances_or_kalman_r;
     c_cov := vel_var_plus_pos_vel_cov_over_added_variances * added_variances_or_kalman_r;
     c_vv := c_vv c + (q - diagonal * ((vel_var_plus_pos_vel_cov_over_added_variances
                                         * vel_var_plus_pos_vel_cov_over_added_variances)
                                        * added_variances)) |}.

(** The arrays of the filter seen coordinate by coordinate. *)
Fixpoint zip_coords (pos vel pv cov vv : list N) : list coord :=
  match pos, vel, pv, cov, vv with
  | a :: pos', b :: vel', c :: pv', d :: cov', e :: vv' =>
      MkCoord a b c d e :: zip_coords pos' vel' pv' cov' vv'
  | _, _, _, _, _ => []
  end.
Definition okf_coords (f : okf) : list coord :=
  zip_coords (firstn (k_dim_z f) (k_x f)) (skipn (k_dim_z f) (k_x f))
             (k_pos_variance f) (k_pos_vel_covariance f) (k_vel_variance f).

Fixpoint update_coords (q : N) (rs : list N) (cs : list coord) (z diagonal : list N) : list coord :=
  match rs, cs, z, diagonal with
  | r :: rs', c :: cs', zi :: z', m :: diagonal' =>
      coord_update q r c zi m :: update_coords q rs' cs' z' diagonal'
  | _, _, _, _ => []
  end.

(** filter.py:174-227 with [R=None] and [H] given (the only way norfair calls it, tracker.py:658). *)
Definition okf_update (f : okf) (z diagonal : list N) : okf :=
  let cs := update_coords (k_q f) (k_default_r f) (okf_coords f) z diagonal in
  {| k_dim_z := k_dim_z f;
     k_x := map c_pos cs ++ map c_vel cs;
     k_pos_variance := map c_pv cs;
     k_pos_vel_covariance := map c_cov cs;
     k_vel_variance := map c_vv cs;
     k_q := k_q f;
     k_default_r := k_default_r f |}.

Definition okf_set_x (f : okf) (x : list N) : okf :=
  {| k_dim_z := k_dim_z f; k_x := x; k_pos_variance := k_pos_variance f;
     k_pos_vel_covariance := k_pos_vel_covariance f; k_vel_variance := k_vel_variance f;
     k_q := k_q f; k_default_r := k_default_r f |}.

Definition okf_ops (p : okf_params) : filter_ops N :=
  {| fstate := okf; f_create := okf_create p; f_predict := okf_predict; f_update := okf_update;
     f_x := k_x; f_set_x := okf_set_x |}.

End Filters.
Arguments nofilter : clear implicits.
Arguments okf : clear implicits.
Arguments okf_params : clear implicits.
Arguments coord : clear implicits.
Arguments nofilter_ops : clear implicits.
