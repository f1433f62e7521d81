(** Model of russell_stat/src/distribution_{uniform,gumbel,frechet,lognormal,normal}.rs: constructors, pdf,
    cdf, mean and variance. Simplifications: exact real arithmetic; the samplers of the external crate
    rand_distr are not modelled except for whether they accept the parameters ([sampler_ok], an oracle);
    the special functions `erf` and `gamma` (russell_lab) and the constant EULER are parameters; `powf(y, 2.0)`
    is y*y and `powf(z, p)` with z > 0 is exp(p ln z). An infinite result is [None]. *)
From Verif Require Import RBase.
Open Scope R_scope.
Open Scope res_scope.

Definition SQRT_2 : R := sqrt 2.
Definition SQRT_6 : R := sqrt 6.
Definition SQRT_PI : R := sqrt PI.

Section Dist.
Variables (erf gamma : R -> R) (EULER : R).

(** distribution_uniform.rs:10-15 *)
Record uniform := mkUni { un_xmin : R; un_xmax : R }.

(** distribution_uniform.rs:24-33 *)
Definition uniform_new (sampler_ok : bool) (xmin xmax : R) : res uniform :=
  if Rltb xmax xmin then Err "invalid parameters"
  else if negb sampler_ok then Err "invalid parameters"
  else Ok (mkUni xmin xmax).

(** distribution_uniform.rs:50-58 *)
Definition uniform_pdf (u : uniform) (x : R) : R :=
  if Rltb x (un_xmin u) then 0
  else if Rltb (un_xmax u) x then 0
  else 1 / (un_xmax u - un_xmin u).

(** distribution_uniform.rs:73-81 *)
Definition uniform_cdf (u : uniform) (x : R) : R :=
  if Rltb x (un_xmin u) then 0
  else if Rltb (un_xmax u) x then 1
  else (x - un_xmin u) / (un_xmax u - un_xmin u).

(** distribution_uniform.rs:96-98, 113-115 *)
Definition uniform_mean (u : uniform) : R := (un_xmin u + un_xmax u) / 2.
Definition uniform_variance (u : uniform) : R :=
  (un_xmax u - un_xmin u) * (un_xmax u - un_xmin u) / 12.

(** distribution_gumbel.rs:13-18 *)
Record gumbel := mkGum { gu_location : R; gu_scale : R }.

(** distribution_gumbel.rs:27-33 *)
Definition gumbel_new (sampler_ok : R -> R -> bool) (location scale : R) : res gumbel :=
  if negb (sampler_ok location scale) then Err "invalid parameters" else Ok (mkGum location scale).

(** distribution_gumbel.rs:41-49 *)
Definition gumbel_new_from_mu_sig (sampler_ok : R -> R -> bool) (mu sig : R) : res gumbel :=
  let scale := sig * SQRT_6 / PI in
  let location := mu - EULER * scale in
  if negb (sampler_ok location scale) then Err "invalid parameters" else Ok (mkGum location scale).

(** distribution_gumbel.rs:71-74 *)
Definition gumbel_pdf (g : gumbel) (x : R) : R :=
  let mz := (gu_location g - x) / gu_scale g in
  exp mz * exp (- exp mz) / gu_scale g.

(** distribution_gumbel.rs:94-97 *)
Definition gumbel_cdf (g : gumbel) (x : R) : R :=
  let mz := (gu_location g - x) / gu_scale g in
  exp (- exp mz).

(** distribution_gumbel.rs:113-115, 133-135 *)
Definition gumbel_mean (g : gumbel) : R := gu_location g + EULER * gu_scale g.
Definition gumbel_variance (g : gumbel) : R := gu_scale g * gu_scale g * PI * PI / 6.

(** distribution_frechet.rs:6 *)
Definition FRECHET_MIN_DELTA_X : R := / 10 ^ 15.

(** distribution_frechet.rs:15-21 *)
Record frechet := mkFre { fr_location : R; fr_scale : R; fr_shape : R }.

(** distribution_frechet.rs:30-37 *)
Definition frechet_new (sampler_ok : R -> R -> R -> bool) (location scale shape : R) : res frechet :=
  if negb (sampler_ok location scale shape) then Err "invalid parameters" else Ok (mkFre location scale shape).

(** distribution_frechet.rs:57-63 *)
Definition frechet_pdf (f : frechet) (x : R) : R :=
  if Rltb (x - fr_location f) FRECHET_MIN_DELTA_X then 0
  else
    let z := (x - fr_location f) / fr_scale f in
    exp (- Rpower z (- fr_shape f)) * Rpower z (-1 - fr_shape f) * fr_shape f / fr_scale f.

(** distribution_frechet.rs:84-90 *)
Definition frechet_cdf (f : frechet) (x : R) : R :=
  if Rltb (x - fr_location f) FRECHET_MIN_DELTA_X then 0
  else
    let z := (x - fr_location f) / fr_scale f in
    exp (- Rpower z (- fr_shape f)).

(** distribution_frechet.rs:108-113 *)
Definition frechet_mean (f : frechet) : option R :=
  if Rltb 1 (fr_shape f) then Some (fr_location f + fr_scale f * gamma (1 - 1 / fr_shape f)) else None.

(** distribution_frechet.rs:131-137 *)
Definition frechet_variance (f : frechet) : option R :=
  if Rltb 2 (fr_shape f) then
    let ss := fr_scale f * fr_scale f in
    Some (ss * (gamma (1 - 2 / fr_shape f) - gamma (1 - 1 / fr_shape f) * gamma (1 - 1 / fr_shape f)))
  else None.

(** distribution_normal.rs:11-18 *)
Record normal := mkNor { no_mu : R; no_sig : R; no_a : R; no_b : R }.

(** distribution_normal.rs:27-35 *)
Definition normal_new (sampler_ok : R -> R -> bool) (mu sig : R) : res normal :=
  if negb (sampler_ok mu sig) then Err "invalid parameters"
  else Ok (mkNor mu sig (1 / (sig * SQRT_2 * SQRT_PI)) (-1 / (2 * sig * sig))).

(** distribution_normal.rs:53-55, 71-73, 88-90, 105-107 *)
Definition normal_pdf (n : normal) (x : R) : R := no_a n * exp (no_b n * ((x - no_mu n) * (x - no_mu n))).
Definition normal_cdf (n : normal) (x : R) : R := (1 + erf ((x - no_mu n) / (no_sig n * SQRT_2))) / 2.
Definition normal_mean (n : normal) : R := no_mu n.
Definition normal_variance (n : normal) : R := no_sig n * no_sig n.

(** distribution_lognormal.rs:6 *)
Definition LOGNORMAL_MIN_X : R := / 10 ^ 15.

(** distribution_lognormal.rs:13-20 *)
Record lognormal := mkLog { lo_mu : R; lo_sig : R; lo_a : R; lo_b : R }.

(** distribution_lognormal.rs:29-37 *)
Definition lognormal_new (sampler_ok : R -> R -> bool) (mu_logx sig_logx : R) : res lognormal :=
  if negb (sampler_ok mu_logx sig_logx) then Err "invalid parameters"
  else Ok (mkLog mu_logx sig_logx (1 / (sig_logx * SQRT_2 * SQRT_PI)) (-1 / (2 * sig_logx * sig_logx))).

(** distribution_lognormal.rs:47-59 *)
Definition lognormal_new_from_mu_sig (sampler_ok : R -> R -> bool) (mu sig : R) : res lognormal :=
  let d := sig / mu in
  let v := ln (1 + d * d) in
  let sig_logx := sqrt v in
  let mu_logx := ln mu - v / 2 in
  if negb (sampler_ok mu_logx sig_logx) then Err "invalid parameters"
  else Ok (mkLog mu_logx sig_logx (1 / (sig_logx * SQRT_2 * SQRT_PI)) (-1 / (2 * sig_logx * sig_logx))).

(** distribution_lognormal.rs:78-83 *)
Definition lognormal_pdf (l : lognormal) (x : R) : R :=
  if Rltb x LOGNORMAL_MIN_X then 0
  else lo_a l * exp (lo_b l * ((ln x - lo_mu l) * (ln x - lo_mu l))) / x.

(** distribution_lognormal.rs:100-105 *)
Definition lognormal_cdf (l : lognormal) (x : R) : R :=
  if Rltb x LOGNORMAL_MIN_X then 0
  else (1 + erf ((ln x - lo_mu l) / (lo_sig l * SQRT_2))) / 2.

(** distribution_lognormal.rs:122-124, 141-144 *)
Definition lognormal_mean (l : lognormal) : R := exp (lo_mu l + lo_sig l * lo_sig l / 2).
Definition lognormal_variance (l : lognormal) : R :=
  let ss := lo_sig l * lo_sig l in
  (exp ss - 1) * exp (2 * lo_mu l + ss).

End Dist.
