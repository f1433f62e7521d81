(** Model of russell_stat/src/{statistics,quantile,quartiles,inter_quartile_range,outliers}.rs.
    Simplifications: the data are real numbers (the code is generic in the number type and converts each
    value with `into::<f64>()`/`to_f64().unwrap()`), f64 arithmetic is exact, and there is no NaN, so
    `partial_cmp(..).unwrap()` never panics. *)
From Verif Require Import RBase Sort_Model.
Open Scope R_scope.
Open Scope res_scope.

(** statistics.rs:4-16 *)
Record stats := mkStats { st_min : R; st_max : R; st_mean : R; st_dev : R }.

(** statistics.rs:73-84: one iteration of the loop; `f64::INFINITY`/`NEG_INFINITY` initial values are [None] *)
Definition stats_step (mean : R) (s : option R * option R * R * R) (x : R) : option R * option R * R * R :=
  let '(mn, mx, corrector, variance) := s in
  let mn := match mn with None => Some x | Some m => if Rltb x m then Some x else mn end in
  let mx := match mx with None => Some x | Some m => if Rltb m x then Some x else mx end in
  let diff := x - mean in
  (mn, mx, corrector + diff, variance + diff * diff).

(** an infinite limit cannot be returned once one value has been seen *)
Definition finite_or_0 (o : option R) : R := match o with Some m => m | None => 0 end.

(** statistics.rs:41-97 *)
Definition statistics_new (x : list R) : stats :=
  match x with
  | [] => mkStats 0 0 0 0
  | [x0] => mkStats x0 x0 x0 0
  | _ =>
      let sum := fold_left (fun acc curr => acc + curr) x 0 in
      let n := INR (length x) in
      let mean := sum / n in
      let '(mn, mx, corrector, variance) := fold_left (stats_step mean) x (None, None, 0, 0) in
      let variance := (variance - corrector * corrector / n) / (n - 1) in
      mkStats (finite_or_0 mn) (finite_or_0 mx) mean (sqrt variance)
  end.

(** `x.floor() as usize`, `x.ceil() as usize` for x >= 0 *)
Definition floor_usize (x : R) : nat := Z.to_nat (Int_part x).
Definition ceil_usize (x : R) : nat := Z.to_nat (- Int_part (- x)).

(** quantile.rs:52-76 *)
Definition quantile (data : list R) (q : R) : res R :=
  let n := length data in
  if (n =? 0)%nat then Panic
  else if Rltb q 0 || Rltb 1 q then Panic
  else
    let index := q * INR (n - 1) in
    let lower_index := floor_usize index in
    let upper_index := ceil_usize index in
    let fraction := index - INR lower_index in
    lower_value <- vget data lower_index ;;
    upper_value <- vget data upper_index ;;
    Ok (lower_value + fraction * (upper_value - lower_value)).

(** `a.partial_cmp(b).unwrap()` *)
Definition Rcmp (a b : R) : comparison :=
  if Rltb a b then Lt else if Rltb b a then Gt else Eq.

(** quartiles.rs:42-62; the first component is the content of the (mutable) data slice afterwards *)
Definition quartiles (data : list R) : res (list R * (R * R * R)) :=
  if (length data =? 0)%nat then Panic
  else
    let data := sort_by Rcmp data in
    q1 <- quantile data (1/4) ;;
    q2 <- quantile data (1/2) ;;
    q3 <- quantile data (3/4) ;;
    Ok (data, (q1, q2, q3)).

(** inter_quartile_range.rs:49-55 *)
Definition inter_quartile_range (data : list R) : res (list R * R) :=
  '(data, (q1, _, q3)) <- quartiles data ;;
  Ok (data, q3 - q1).

(** outliers.rs:53-84 *)
Definition outliers (data : list R) : res (list (nat * R)) :=
  let indexed := combine (seq 0 (length data)) data in
  let indexed := sort_by (fun a b => Rcmp (snd a) (snd b)) indexed in
  let sorted_values := map snd indexed in
  '(_, (q1, _, q3)) <- quartiles sorted_values ;;
  let iqr := q3 - q1 in
  let lower_bound := q1 - 3/2 * iqr in
  let upper_bound := q3 + 3/2 * iqr in
  Ok (filter (fun '(_, v) => Rltb v lower_bound || Rltb upper_bound v) indexed).
