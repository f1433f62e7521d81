(** Model of russell_stat/src/histogram.rs (Display is not modelled). *)
From Verif Require Import Base.

Section Hist.
Variable T : Type.
(** the two `PartialOrd` operators the code uses: `a < b` and `a >= b` *)
Variables (lt ge : T -> T -> bool).

(** histogram.rs:62-76 (the three formatting fields are only read by Display: dropped) *)
Record hist := mkHist { h_stations : list T; h_counts : list nat }.

(** histogram.rs:83-95 *)
Definition hist_new (stations : list T) : res hist :=
  if length stations <? 2 then Err "histogram must have at least 2 stations"
  else Ok (mkHist stations (repeat 0 (length stations - 1))).

(** histogram.rs:147-158: the `while upper - lower > 1` loop; [fuel] bounds the number of iterations,
    running out of it is reported as a panic (the theorems show that it does not happen) *)
Fixpoint bin_search (fuel : nat) (st : list T) (x : T) (lower upper : nat) : res nat :=
  if 1 <? upper - lower then
    match fuel with
    | 0 => Panic
    | S fuel' =>
        let mid := (upper + lower) / 2 in
        s <- vget st mid ;;
        if ge x s then bin_search fuel' st x mid upper else bin_search fuel' st x lower mid
    end
  else Ok lower.

(** histogram.rs:137-160 *)
Definition find_bin (h : hist) (x : T) : res (option nat) :=
  let st := h_stations h in
  let nstation := length st in
  s0 <- vget st 0 ;;
  if lt x s0 then Ok None
  else
    last <- usub nstation 1 ;;
    sl <- vget st last ;;
    if ge x sl then Ok None
    else
      lower <- bin_search nstation st x 0 nstation ;;
      Ok (Some lower).

(** histogram.rs:98-104 *)
Definition hist_count (h : hist) (data : list T) : res hist :=
  for_each data (fun x h =>
    b <- find_bin h x ;;
    match b with
    | Some i =>
        c <- vget (h_counts h) i ;;
        cs <- vset (h_counts h) i (c + 1) ;;
        Ok (mkHist (h_stations h) cs)
    | None => Ok h
    end) h.

(** histogram.rs:107-111 *)
Definition hist_reset (h : hist) : res hist :=
  for_range 0 (length (h_counts h)) (fun i h =>
    cs <- vset (h_counts h) i 0 ;; Ok (mkHist (h_stations h) cs)) h.

(** a history of calls on one histogram *)
Inductive hist_op := OpCount (data : list T) | OpReset.

Definition hist_run (ops : list hist_op) (h : hist) : res hist :=
  for_each ops (fun o h => match o with OpCount d => hist_count h d | OpReset => hist_reset h end) h.

End Hist.
Arguments mkHist {T}.
Arguments h_stations {T}.
Arguments h_counts {T}.
Arguments OpCount {T}.
Arguments OpReset {T}.
