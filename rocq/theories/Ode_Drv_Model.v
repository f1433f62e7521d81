(** russell_ode: the driver OdeSolver::solve (ode_solver.rs) and the output recorder (output.rs).
    The numerical method is any value of [method_ops] (trait OdeSolverTrait); callbacks are oracles.
    f64 is read as R; args, stopwatches and debug messages are not modelled; writing a file always
    succeeds and is visible in the log. *)
From Verif Require Export Ode_Base_Model.
Local Open Scope nat_scope.

(** ode_solver_trait.rs: trait `OdeSolverTrait`; [S] is the state of the method *)
Record method_ops (S : Type) := mkOps {
  m_enable_dense : S -> res S;
  m_step : S -> workspace -> R -> vec -> R -> res (S * workspace);
  m_accept : S -> workspace -> R -> vec -> R -> res (S * workspace * R * vec);
  m_reject : S -> workspace -> R -> S * workspace;
  m_dense : S -> R -> R -> vec -> R -> res vec }.
Arguments m_enable_dense {S}.
Arguments m_step {S}.
Arguments m_accept {S}.
Arguments m_reject {S}.
Arguments m_dense {S}.

(** callbacks: output.rs:60, 88 *)
Definition callback := stats -> R -> R -> vec -> res bool.

(** what the outside world sees of the output: callback calls and files *)
Inductive event :=
| EvStepCb (h x : R) (y : vec)
| EvStepFile (idx : nat) (h x : R) (y : vec)
| EvStepCount (n : nat)
| EvDenseCb (h x : R) (y : vec)
| EvDenseFile (idx : nat) (h x : R) (y : vec)
| EvDenseCount (n : nat).

(** output.rs:48-133 `Output`; [o_log] is the sequence of effects. y_aux is a temporary and is omitted;
    the hash maps are association lists *)
Record output := mkOut {
  o_initialized : bool;
  o_x0 : R;
  o_x1 : R;
  o_step_cb : option callback;
  o_step_file : bool;
  o_step_file_count : nat;
  o_step_rec : bool;
  o_step_h : list R;
  o_step_x : list R;
  o_step_y : list (nat * list R);
  o_step_gerr : list R;
  o_dense_cb : option callback;
  o_dense_file : bool;
  o_dense_file_count : nat;
  o_dense_rec : bool;
  o_dense_h_out : option R;
  o_dense_index : nat;
  o_dense_x : list R;
  o_dense_y : list (nat * list R);
  o_stiff_rec : bool;
  o_stiff_step_index : list nat;
  o_stiff_x : list (option R);
  o_stiff_hrho : list R;
  o_yx_fn : option (R -> vec);
  o_log : list event }.
Definition set_o_initialized (v : bool) (r : output) : output :=
  mkOut v (o_x0 r) (o_x1 r) (o_step_cb r) (o_step_file r) (o_step_file_count r) (o_step_rec r) (o_step_h r) (o_step_x r) (o_step_y r) (o_step_gerr r) (o_dense_cb r) (o_dense_file r) (o_dense_file_count r) (o_dense_rec r) (o_dense_h_out r) (o_dense_index r) (o_dense_x r) (o_dense_y r) (o_stiff_rec r) (o_stiff_step_index r) (o_stiff_x r) (o_stiff_hrho r) (o_yx_fn r) (o_log r).
Definition set_o_x0 (v : R) (r : output) : output :=
  mkOut (o_initialized r) v (o_x1 r) (o_step_cb r) (o_step_file r) (o_step_file_count r) (o_step_rec r) (o_step_h r) (o_step_x r) (o_step_y r) (o_step_gerr r) (o_dense_cb r) (o_dense_file r) (o_dense_file_count r) (o_dense_rec r) (o_dense_h_out r) (o_dense_index r) (o_dense_x r) (o_dense_y r) (o_stiff_rec r) (o_stiff_step_index r) (o_stiff_x r) (o_stiff_hrho r) (o_yx_fn r) (o_log r).
Definition set_o_x1 (v : R) (r : output) : output :=
  mkOut (o_initialized r) (o_x0 r) v (o_step_cb r) (o_step_file r) (o_step_file_count r) (o_step_rec r) (o_step_h r) (o_step_x r) (o_step_y r) (o_step_gerr r) (o_dense_cb r) (o_dense_file r) (o_dense_file_count r) (o_dense_rec r) (o_dense_h_out r) (o_dense_index r) (o_dense_x r) (o_dense_y r) (o_stiff_rec r) (o_stiff_step_index r) (o_stiff_x r) (o_stiff_hrho r) (o_yx_fn r) (o_log r).
Definition set_o_step_cb (v : option callback) (r : output) : output :=
  mkOut (o_initialized r) (o_x0 r) (o_x1 r) v (o_step_file r) (o_step_file_count r) (o_step_rec r) (o_step_h r) (o_step_x r) (o_step_y r) (o_step_gerr r) (o_dense_cb r) (o_dense_file r) (o_dense_file_count r) (o_dense_rec r) (o_dense_h_out r) (o_dense_index r) (o_dense_x r) (o_dense_y r) (o_stiff_rec r) (o_stiff_step_index r) (o_stiff_x r) (o_stiff_hrho r) (o_yx_fn r) (o_log r).
Definition set_o_step_file (v : bool) (r : output) : output :=
  mkOut (o_initialized r) (o_x0 r) (o_x1 r) (o_step_cb r) v (o_step_file_count r) (o_step_rec r) (o_step_h r) (o_step_x r) (o_step_y r) (o_step_gerr r) (o_dense_cb r) (o_dense_file r) (o_dense_file_count r) (o_dense_rec r) (o_dense_h_out r) (o_dense_index r) (o_dense_x r) (o_dense_y r) (o_stiff_rec r) (o_stiff_step_index r) (o_stiff_x r) (o_stiff_hrho r) (o_yx_fn r) (o_log r).
Definition set_o_step_file_count (v : nat) (r : output) : output :=
  mkOut (o_initialized r) (o_x0 r) (o_x1 r) (o_step_cb r) (o_step_file r) v (o_step_rec r) (o_step_h r) (o_step_x r) (o_step_y r) (o_step_gerr r) (o_dense_cb r) (o_dense_file r) (o_dense_file_count r) (o_dense_rec r) (o_dense_h_out r) (o_dense_index r) (o_dense_x r) (o_dense_y r) (o_stiff_rec r) (o_stiff_step_index r) (o_stiff_x r) (o_stiff_hrho r) (o_yx_fn r) (o_log r).
Definition set_o_step_rec (v : bool) (r : output) : output :=
  mkOut (o_initialized r) (o_x0 r) (o_x1 r) (o_step_cb r) (o_step_file r) (o_step_file_count r) v (o_step_h r) (o_step_x r) (o_step_y r) (o_step_gerr r) (o_dense_cb r) (o_dense_file r) (o_dense_file_count r) (o_dense_rec r) (o_dense_h_out r) (o_dense_index r) (o_dense_x r) (o_dense_y r) (o_stiff_rec r) (o_stiff_step_index r) (o_stiff_x r) (o_stiff_hrho r) (o_yx_fn r) (o_log r).
Definition set_o_step_h (v : list R) (r : output) : output :=
  mkOut (o_initialized r) (o_x0 r) (o_x1 r) (o_step_cb r) (o_step_file r) (o_step_file_count r) (o_step_rec r) v (o_step_x r) (o_step_y r) (o_step_gerr r) (o_dense_cb r) (o_dense_file r) (o_dense_file_count r) (o_dense_rec r) (o_dense_h_out r) (o_dense_index r) (o_dense_x r) (o_dense_y r) (o_stiff_rec r) (o_stiff_step_index r) (o_stiff_x r) (o_stiff_hrho r) (o_yx_fn r) (o_log r).
Definition set_o_step_x (v : list R) (r : output) : output :=
  mkOut (o_initialized r) (o_x0 r) (o_x1 r) (o_step_cb r) (o_step_file r) (o_step_file_count r) (o_step_rec r) (o_step_h r) v (o_step_y r) (o_step_gerr r) (o_dense_cb r) (o_dense_file r) (o_dense_file_count r) (o_dense_rec r) (o_dense_h_out r) (o_dense_index r) (o_dense_x r) (o_dense_y r) (o_stiff_rec r) (o_stiff_step_index r) (o_stiff_x r) (o_stiff_hrho r) (o_yx_fn r) (o_log r).
Definition set_o_step_y (v : list (nat * list R)) (r : output) : output :=
  mkOut (o_initialized r) (o_x0 r) (o_x1 r) (o_step_cb r) (o_step_file r) (o_step_file_count r) (o_step_rec r) (o_step_h r) (o_step_x r) v (o_step_gerr r) (o_dense_cb r) (o_dense_file r) (o_dense_file_count r) (o_dense_rec r) (o_dense_h_out r) (o_dense_index r) (o_dense_x r) (o_dense_y r) (o_stiff_rec r) (o_stiff_step_index r) (o_stiff_x r) (o_stiff_hrho r) (o_yx_fn r) (o_log r).
Definition set_o_step_gerr (v : list R) (r : output) : output :=
  mkOut (o_initialized r) (o_x0 r) (o_x1 r) (o_step_cb r) (o_step_file r) (o_step_file_count r) (o_step_rec r) (o_step_h r) (o_step_x r) (o_step_y r) v (o_dense_cb r) (o_dense_file r) (o_dense_file_count r) (o_dense_rec r) (o_dense_h_out r) (o_dense_index r) (o_dense_x r) (o_dense_y r) (o_stiff_rec r) (o_stiff_step_index r) (o_stiff_x r) (o_stiff_hrho r) (o_yx_fn r) (o_log r).
Definition set_o_dense_cb (v : option callback) (r : output) : output :=
  mkOut (o_initialized r) (o_x0 r) (o_x1 r) (o_step_cb r) (o_step_file r) (o_step_file_count r) (o_step_rec r) (o_step_h r) (o_step_x r) (o_step_y r) (o_step_gerr r) v (o_dense_file r) (o_dense_file_count r) (o_dense_rec r) (o_dense_h_out r) (o_dense_index r) (o_dense_x r) (o_dense_y r) (o_stiff_rec r) (o_stiff_step_index r) (o_stiff_x r) (o_stiff_hrho r) (o_yx_fn r) (o_log r).
Definition set_o_dense_file (v : bool) (r : output) : output :=
  mkOut (o_initialized r) (o_x0 r) (o_x1 r) (o_step_cb r) (o_step_file r) (o_step_file_count r) (o_step_rec r) (o_step_h r) (o_step_x r) (o_step_y r) (o_step_gerr r) (o_dense_cb r) v (o_dense_file_count r) (o_dense_rec r) (o_dense_h_out r) (o_dense_index r) (o_dense_x r) (o_dense_y r) (o_stiff_rec r) (o_stiff_step_index r) (o_stiff_x r) (o_stiff_hrho r) (o_yx_fn r) (o_log r).
Definition set_o_dense_file_count (v : nat) (r : output) : output :=
  mkOut (o_initialized r) (o_x0 r) (o_x1 r) (o_step_cb r) (o_step_file r) (o_step_file_count r) (o_step_rec r) (o_step_h r) (o_step_x r) (o_step_y r) (o_step_gerr r) (o_dense_cb r) (o_dense_file r) v (o_dense_rec r) (o_dense_h_out r) (o_dense_index r) (o_dense_x r) (o_dense_y r) (o_stiff_rec r) (o_stiff_step_index r) (o_stiff_x r) (o_stiff_hrho r) (o_yx_fn r) (o_log r).
Definition set_o_dense_rec (v : bool) (r : output) : output :=
  mkOut (o_initialized r) (o_x0 r) (o_x1 r) (o_step_cb r) (o_step_file r) (o_step_file_count r) (o_step_rec r) (o_step_h r) (o_step_x r) (o_step_y r) (o_step_gerr r) (o_dense_cb r) (o_dense_file r) (o_dense_file_count r) v (o_dense_h_out r) (o_dense_index r) (o_dense_x r) (o_dense_y r) (o_stiff_rec r) (o_stiff_step_index r) (o_stiff_x r) (o_stiff_hrho r) (o_yx_fn r) (o_log r).
Definition set_o_dense_h_out (v : option R) (r : output) : output :=
  mkOut (o_initialized r) (o_x0 r) (o_x1 r) (o_step_cb r) (o_step_file r) (o_step_file_count r) (o_step_rec r) (o_step_h r) (o_step_x r) (o_step_y r) (o_step_gerr r) (o_dense_cb r) (o_dense_file r) (o_dense_file_count r) (o_dense_rec r) v (o_dense_index r) (o_dense_x r) (o_dense_y r) (o_stiff_rec r) (o_stiff_step_index r) (o_stiff_x r) (o_stiff_hrho r) (o_yx_fn r) (o_log r).
Definition set_o_dense_index (v : nat) (r : output) : output :=
  mkOut (o_initialized r) (o_x0 r) (o_x1 r) (o_step_cb r) (o_step_file r) (o_step_file_count r) (o_step_rec r) (o_step_h r) (o_step_x r) (o_step_y r) (o_step_gerr r) (o_dense_cb r) (o_dense_file r) (o_dense_file_count r) (o_dense_rec r) (o_dense_h_out r) v (o_dense_x r) (o_dense_y r) (o_stiff_rec r) (o_stiff_step_index r) (o_stiff_x r) (o_stiff_hrho r) (o_yx_fn r) (o_log r).
Definition set_o_dense_x (v : list R) (r : output) : output :=
  mkOut (o_initialized r) (o_x0 r) (o_x1 r) (o_step_cb r) (o_step_file r) (o_step_file_count r) (o_step_rec r) (o_step_h r) (o_step_x r) (o_step_y r) (o_step_gerr r) (o_dense_cb r) (o_dense_file r) (o_dense_file_count r) (o_dense_rec r) (o_dense_h_out r) (o_dense_index r) v (o_dense_y r) (o_stiff_rec r) (o_stiff_step_index r) (o_stiff_x r) (o_stiff_hrho r) (o_yx_fn r) (o_log r).
Definition set_o_dense_y (v : list (nat * list R)) (r : output) : output :=
  mkOut (o_initialized r) (o_x0 r) (o_x1 r) (o_step_cb r) (o_step_file r) (o_step_file_count r) (o_step_rec r) (o_step_h r) (o_step_x r) (o_step_y r) (o_step_gerr r) (o_dense_cb r) (o_dense_file r) (o_dense_file_count r) (o_dense_rec r) (o_dense_h_out r) (o_dense_index r) (o_dense_x r) v (o_stiff_rec r) (o_stiff_step_index r) (o_stiff_x r) (o_stiff_hrho r) (o_yx_fn r) (o_log r).
Definition set_o_stiff_rec (v : bool) (r : output) : output :=
  mkOut (o_initialized r) (o_x0 r) (o_x1 r) (o_step_cb r) (o_step_file r) (o_step_file_count r) (o_step_rec r) (o_step_h r) (o_step_x r) (o_step_y r) (o_step_gerr r) (o_dense_cb r) (o_dense_file r) (o_dense_file_count r) (o_dense_rec r) (o_dense_h_out r) (o_dense_index r) (o_dense_x r) (o_dense_y r) v (o_stiff_step_index r) (o_stiff_x r) (o_stiff_hrho r) (o_yx_fn r) (o_log r).
Definition set_o_stiff_step_index (v : list nat) (r : output) : output :=
  mkOut (o_initialized r) (o_x0 r) (o_x1 r) (o_step_cb r) (o_step_file r) (o_step_file_count r) (o_step_rec r) (o_step_h r) (o_step_x r) (o_step_y r) (o_step_gerr r) (o_dense_cb r) (o_dense_file r) (o_dense_file_count r) (o_dense_rec r) (o_dense_h_out r) (o_dense_index r) (o_dense_x r) (o_dense_y r) (o_stiff_rec r) v (o_stiff_x r) (o_stiff_hrho r) (o_yx_fn r) (o_log r).
Definition set_o_stiff_x (v : list (option R)) (r : output) : output :=
  mkOut (o_initialized r) (o_x0 r) (o_x1 r) (o_step_cb r) (o_step_file r) (o_step_file_count r) (o_step_rec r) (o_step_h r) (o_step_x r) (o_step_y r) (o_step_gerr r) (o_dense_cb r) (o_dense_file r) (o_dense_file_count r) (o_dense_rec r) (o_dense_h_out r) (o_dense_index r) (o_dense_x r) (o_dense_y r) (o_stiff_rec r) (o_stiff_step_index r) v (o_stiff_hrho r) (o_yx_fn r) (o_log r).
Definition set_o_stiff_hrho (v : list R) (r : output) : output :=
  mkOut (o_initialized r) (o_x0 r) (o_x1 r) (o_step_cb r) (o_step_file r) (o_step_file_count r) (o_step_rec r) (o_step_h r) (o_step_x r) (o_step_y r) (o_step_gerr r) (o_dense_cb r) (o_dense_file r) (o_dense_file_count r) (o_dense_rec r) (o_dense_h_out r) (o_dense_index r) (o_dense_x r) (o_dense_y r) (o_stiff_rec r) (o_stiff_step_index r) (o_stiff_x r) v (o_yx_fn r) (o_log r).
Definition set_o_yx_fn (v : option (R -> vec)) (r : output) : output :=
  mkOut (o_initialized r) (o_x0 r) (o_x1 r) (o_step_cb r) (o_step_file r) (o_step_file_count r) (o_step_rec r) (o_step_h r) (o_step_x r) (o_step_y r) (o_step_gerr r) (o_dense_cb r) (o_dense_file r) (o_dense_file_count r) (o_dense_rec r) (o_dense_h_out r) (o_dense_index r) (o_dense_x r) (o_dense_y r) (o_stiff_rec r) (o_stiff_step_index r) (o_stiff_x r) (o_stiff_hrho r) v (o_log r).
Definition set_o_log (v : list event) (r : output) : output :=
  mkOut (o_initialized r) (o_x0 r) (o_x1 r) (o_step_cb r) (o_step_file r) (o_step_file_count r) (o_step_rec r) (o_step_h r) (o_step_x r) (o_step_y r) (o_step_gerr r) (o_dense_cb r) (o_dense_file r) (o_dense_file_count r) (o_dense_rec r) (o_dense_h_out r) (o_dense_index r) (o_dense_x r) (o_dense_y r) (o_stiff_rec r) (o_stiff_step_index r) (o_stiff_x r) (o_stiff_hrho r) (o_yx_fn r) v.

(** output.rs:183-216 `Output::new` *)
Definition output_new : output :=
  mkOut false 0 0 None false 0 false [] [] [] [] None false 0 false None 0 [] [] false [] [] [] None [].

Definition log (e : event) (o : output) : output := set_o_log (o_log o ++ [e]) o.

(** HashMap::insert *)
Definition hm_insert (m : nat) (l : list (nat * list R)) : list (nat * list R) :=
  filter (fun p => negb (fst p =? m)) l ++ [(m, [])].

(** output.rs:227-243, 316-340, 366-369: callbacks and files *)
Definition set_step_callback (cb : callback) (o : output) := set_o_step_cb (Some cb) o.
Definition set_dense_callback (cb : callback) (o : output) := set_o_dense_cb (Some cb) o.
Definition set_step_file_writing (o : output) := set_o_step_file true o.
Definition set_dense_file_writing (len : nat) (o : output) : res output :=
  if len <? 4 then Err "the length of the filepath without extension must be at least 4" else Ok (set_o_dense_file true o).
(** output.rs:256-262 `set_step_recording` *)
Definition set_step_recording (sel : list nat) (o : output) : output :=
  set_o_step_y (fold_left (fun l m => hm_insert m l) sel (o_step_y o)) (set_o_step_rec true o).
(** output.rs:355-361 `set_dense_recording` *)
Definition set_dense_recording (sel : list nat) (o : output) : output :=
  set_o_dense_y (fold_left (fun l m => hm_insert m l) sel (o_dense_y o)) (set_o_dense_rec true o).
(** output.rs:269-275 `set_dense_h_out` *)
Definition set_dense_h_out (h_out : R) (o : output) : res output :=
  if Rleb h_out (10 * EPSILON) then Err "h_out must be > 10.0 * EPSILON" else Ok (set_o_dense_h_out (Some h_out) o).

(** output.rs:285-302 `set_dense_x_out`; the second component is the output left behind (also on error) *)
Fixpoint dense_x_out_loop (k : nat) (prev : option R) (xs : list R) (dx : list R) : res unit * list R :=
  match xs with
  | [] => (Ok tt, dx)
  | x :: xs' =>
    match prev with
    | Some p =>
      if Rltb x p then (Err "the dense output stations x must be sorted in ascending order in (x0, x1)", dx)
      else if Rleb (x - p) (10 * EPSILON) then (Err "the x spacing must be > 10.0 * EPSILON", dx)
      else dense_x_out_loop (S k) (Some x) xs' (upd dx (1 + k) x)
    | None => dense_x_out_loop (S k) (Some x) xs' (upd dx (1 + k) x)
    end
  end.
Definition set_dense_x_out (xs : list R) (o : output) : res unit * output :=
  let '(r, dx) := dense_x_out_loop 0 None xs (repeat 0%R (length xs + 2)) in
  match r with
  | Ok _ => (r, set_o_dense_h_out None (set_o_dense_x dx o))
  | _ => (r, set_o_dense_x dx o)
  end.

(** output.rs:488-490 `with_dense_output` *)
Definition with_dense_output (o : output) : bool :=
  (match o_dense_cb o with Some _ => true | None => false end) || o_dense_file o || o_dense_rec o.

(** `Vec::resize` *)
Definition resize (l : list R) (n : nat) : list R := firstn n l ++ repeat 0%R (n - length l).

(** `x as usize` (truncation, for x >= 0; negative values give 0) and `ceil(x) as usize` *)
Definition trunc_usize (x : R) : nat := Z.to_nat (Int_part x).
Definition ceil_usize (x : R) : nat := Z.to_nat (- Int_part (- x)).

(** output.rs:14 *)
Definition EPS_X1_H_OUT : R := (1 / 10 ^ 13)%R.

(** output.rs:443-479: stations of the dense output *)
Definition dense_stations (x0 x1 : R) (o : output) : res (list R) :=
  match o_dense_h_out o with
  | Some h_out =>
    let n := Nat.max 2 (trunc_usize ((x1 + EPS_X1_H_OUT - x0) / h_out) + 1) in
    let dx := if length (o_dense_x o) =? n then o_dense_x o else resize (o_dense_x o) n in
    dx <- vset dx 0 x0 ;;
    dx <- vset dx (n - 1) x1 ;;
    for_range 1 (n - 1) (fun i dx => p <- vget dx (i - 1) ;; vset dx i (p + h_out)%R) dx
  | None =>
    let dx := if length (o_dense_x o) =? 0 then repeat 0%R 2 else o_dense_x o in
    let n := length dx in
    dx <- vset dx 0 x0 ;;
    dx <- vset dx (n - 1) x1 ;;
    if 2 <? n then
      d1 <- vget dx 1 ;;
      if Rleb d1 x0 then Err "the first interior x_out for dense output must be > x0"
      else d2 <- vget dx (n - 2) ;;
           if Rleb x1 d2 then Err "the last interior x_out for dense output must be < x1" else Ok dx
    else Ok dx
  end.

(** output.rs:423-485 `initialize` *)
Definition o_initialize (x0 x1 : R) (stiff : bool) (o : output) : res output :=
  _ <- assert_ (Rltb x0 x1) ;;
  let o := set_o_stiff_rec stiff o in
  let o := if o_initialized o && o_step_rec o
           then set_o_step_y (map (fun p => (fst p, [])) (o_step_y o)) (set_o_step_gerr [] (set_o_step_x [] (set_o_step_h [] o)))
           else o in
  let o := if o_initialized o && o_stiff_rec o
           then set_o_stiff_hrho [] (set_o_stiff_x [] (set_o_stiff_step_index [] o)) else o in
  o <- (if with_dense_output o then
          dx <- dense_stations x0 x1 o ;;
          let n := length dx in
          Ok (set_o_dense_y (map (fun p => (fst p, if length (snd p) =? n then snd p else resize (snd p) n)) (o_dense_y o))
               (set_o_dense_x dx o))
        else Ok o) ;;
  Ok (set_o_initialized true (set_o_x1 x1 (set_o_x0 x0 o))).

(** for (m, ym) in map.iter_mut() { ... } *)
Fixpoint hm_map (g : nat -> list R -> res (list R)) (l : list (nat * list R)) : res (list (nat * list R)) :=
  match l with
  | [] => Ok []
  | (m, ym) :: l' => ym' <- g m ym ;; r <- hm_map g l' ;; Ok ((m, ym') :: r)
  end.

(** russell_lab vec_max_abs_diff.rs:30-44 (value only) *)
Definition max_abs_diff (u v : vec) : res R :=
  if length v =? length u then Ok (fold_left (fun m p => if Rltb m (Rabs (fst p - snd p)) then Rabs (fst p - snd p) else m) (combine u v) 0%R)
  else Err "vectors are incompatible".

(** output.rs:507-512, 547-552, 593-598: run a callback *)
Definition run_cb (cb : option callback) (st : stats) (h x : R) (y : vec) (ev : event) (o : output) : res (bool * output) :=
  match cb with
  | None => Ok (false, o)
  | Some f => stop <- f st h x y ;; Ok (stop, log ev o)
  end.

(** output.rs:522-537 *)
Definition record_step (h x : R) (y : vec) (o : output) : res output :=
  if o_step_rec o then
    let o := set_o_step_x (o_step_x o ++ [x]) (set_o_step_h (o_step_h o ++ [h]) o) in
    sy <- hm_map (fun m ym => v <- vget y m ;; Ok (ym ++ [v])) (o_step_y o) ;;
    let o := set_o_step_y sy o in
    match o_yx_fn o with
    | Some g => err <- unwrap (max_abs_diff y (g x)) ;; Ok (set_o_step_gerr (o_step_gerr o ++ [err]) o)
    | None => Ok o
    end
  else Ok o.

(** output.rs:563-567, 609-613, 678-682: ym[dense_index] = y[m] *)
Definition record_dense (y : vec) (o : output) : res output :=
  if o_dense_rec o then
    dy <- hm_map (fun m ym => v <- vget y m ;; vset ym (o_dense_index o) v) (o_dense_y o) ;;
    Ok (set_o_dense_y dy o)
  else Ok o.

Definition write_step_file (h x : R) (y : vec) (o : output) : output :=
  if o_step_file o then set_o_step_file_count (o_step_file_count o + 1) (log (EvStepFile (o_step_file_count o) h x y) o) else o.
Definition write_dense_file (h x : R) (y : vec) (o : output) : output :=
  if o_dense_file o then set_o_dense_file_count (o_dense_file_count o + 1) (log (EvDenseFile (o_dense_file_count o) h x y) o) else o.

Section Driver.
Variable S : Type.
Variable M : method_ops S.

(** output.rs:580-617: the loop over the stations not after x; [fuel] counts the stations left *)
Fixpoint dense_loop (fuel : nat) (s : S) (st : stats) (h x : R) (y : vec) (o : output) : res (bool * output) :=
  match fuel with
  | 0 => Ok (false, o)
  | Datatypes.S fuel' =>
    x_out <- vget (o_dense_x o) (o_dense_index o) ;;
    if Rltb x x_out then Ok (false, o)
    else
      y_out <- m_dense M s x_out x y h ;;
      '(stop, o) <- run_cb (o_dense_cb o) st h x_out y_out (EvDenseCb h x_out y_out) o ;;
      if stop then Ok (true, o)
      else
        let o := write_dense_file h x_out y_out o in
        o <- record_dense y_out o ;;
        dense_loop fuel' s st h x y (set_o_dense_index (o_dense_index o + 1) o)
  end.

(** output.rs:541-619 *)
Definition dense_part (s : S) (w : workspace) (h x : R) (y : vec) (o : output) : res (bool * output) :=
  if with_dense_output o then
    if n_accepted (w_stats w) =? 0 then
      let o := set_o_dense_index 0 o in
      '(stop, o) <- run_cb (o_dense_cb o) (w_stats w) h x y (EvDenseCb h x y) o ;;
      if stop then Ok (true, o)
      else
        let o := write_dense_file h x y o in
        o <- record_dense y o ;;
        Ok (false, set_o_dense_index (o_dense_index o + 1) o)
    else
      n_out <- usub (length (o_dense_x o)) 1 ;;
      dense_loop (n_out - o_dense_index o) s (w_stats w) h x y o
  else Ok (false, o).

(** output.rs:622-628 *)
Definition record_stiff (w : workspace) (o : output) : output :=
  if o_stiff_rec o then
    let o := set_o_stiff_hrho (o_stiff_hrho o ++ [w_stiff_hrho w]) o in
    if w_stiff_detected w then
      set_o_stiff_x (o_stiff_x o ++ [w_stiff_x w]) (set_o_stiff_step_index (o_stiff_step_index o ++ [n_accepted (w_stats w)]) o)
    else o
  else o.

(** output.rs:493-632 `execute` *)
Definition o_execute (s : S) (w : workspace) (h x : R) (y : vec) (o : output) : res (bool * output) :=
  _ <- assert_ (o_initialized o) ;;
  '(stop, o) <- run_cb (o_step_cb o) (w_stats w) h x y (EvStepCb h x y) o ;;
  if stop then Ok (true, o)
  else
    let o := write_step_file h x y o in
    o <- record_step h x y o ;;
    '(stop, o) <- dense_part s w h x y o ;;
    if stop then Ok (true, o) else Ok (false, record_stiff w o).

(** output.rs:635-685 `last` *)
Definition o_last (w : workspace) (h x : R) (y : vec) (o : output) : res output :=
  let o := if o_step_file o then log (EvStepCount (o_step_file_count o)) o else o in
  if with_dense_output o then
    n <- usub (length (o_dense_x o)) 1 ;;
    _ <- assert_ (o_dense_index o =? n) ;;
    '(_, o) <- run_cb (o_dense_cb o) (w_stats w) h x y (EvDenseCb h x y) o ;;
    let o := write_dense_file h x y o in
    let o := if o_dense_file o then log (EvDenseCount (o_dense_file_count o)) o else o in
    record_dense y o
  else Ok o.

Variable all_finite : vec -> res unit.   (** vec_all_finite.rs:33-43 *)

(** one pass of a loop, for the record (ghost): what became of the attempt; an accepted one shows
    the stepsize and the new (x, y) *)
Inductive attempt := Accepted (h x : R) (y : vec) | Rejected | Diverged.

(** the variables of `solve` *)
Record dstate := mkD { d_s : S; d_w : workspace; d_out : option output; d_x : R; d_y : vec; d_h : R; d_tr : list attempt }.

Definition exec_opt (s : S) (w : workspace) (h x : R) (y : vec) (oo : option output) : res (bool * option output) :=
  match oo with
  | None => Ok (false, None)
  | Some o => '(stop, o) <- o_execute s w h x y o ;; Ok (stop, Some o)
  end.
Definition last_opt (w : workspace) (h x : R) (y : vec) (oo : option output) : res (option output) :=
  match oo with
  | None => Ok None
  | Some o => o <- o_last w h x y o ;; Ok (Some o)
  end.

(** ode_solver.rs:241-265: [n] equal steps; the flag says that the user stopped *)
Fixpoint equal_loop (n : nat) (d : dstate) : res (bool * dstate) :=
  match n with
  | 0 => Ok (false, d)
  | Datatypes.S n' =>
    let w := add_n_steps (d_w d) in
    '(s, w) <- m_step M (d_s d) w (d_x d) (d_y d) (d_h d) ;;
    let w := add_n_accepted w in
    '(s, w, x, y) <- m_accept M s w (d_x d) (d_y d) (d_h d) ;;
    _ <- all_finite y ;;
    '(stop, oo) <- exec_opt s w (d_h d) x y (d_out d) ;;
    let d' := mkD s w oo x y (d_h d) (d_tr d ++ [Accepted (d_h d) x y]) in
    if stop then Ok (true, d') else equal_loop n' d'
  end.

Inductive ending := Stopped | Success | Exhausted.

(** ode_solver.rs:278-366: the variable stepping loop, at most [n] passes *)
Fixpoint var_loop (P : params) (x1 : R) (n : nat) (last_step : bool) (d : dstate) : res (ending * dstate) :=
  match n with
  | 0 => Ok (Exhausted, d)
  | Datatypes.S n' =>
    let dx := (x1 - d_x d)%R in
    if Rleb dx (10 * EPSILON) then Ok (Success, d)
    else
      let h := Rmin (w_h_new (d_w d)) dx in
      if Rleb h (10 * EPSILON) then Err "the stepsize becomes too small"
      else
        let w := add_n_steps (d_w d) in
        '(s, w) <- m_step M (d_s d) w (d_x d) (d_y d) h ;;
        if w_diverging w then
          let w := set_w_h_new (h * w_h_mult w)%R (set_w_follows_reject true (set_w_diverging false w)) in
          var_loop P x1 n' false (mkD s w (d_out d) (d_x d) (d_y d) h (d_tr d ++ [Diverged]))
        else if Rltb (w_rel_error w) 1 then
          let w := add_n_accepted w in
          '(s, w, x, y) <- m_accept M s w (d_x d) (d_y d) h ;;
          _ <- all_finite y ;;
          let w := if w_follows_reject w then set_w_h_new (Rmin (w_h_new w) h) w else w in
          let w := set_w_follows_reject false w in
          let w := set_w_h_prev h w in
          let w := set_w_rel_error_prev (Rmax (rel_error_prev_min (p_step P)) (w_rel_error w)) w in
          let w := on_stats (set_h_accepted (w_h_new w)) w in
          '(stop, oo) <- exec_opt s w h x y (d_out d) ;;
          let d' := mkD s w oo x y h (d_tr d ++ [Accepted h x y]) in
          if stop then Ok (Stopped, d')
          else if last_step then Ok (Success, d')
          else var_loop P x1 n' (Rleb x1 (x + w_h_new w)) d'
        else
          let w := if 0 <? n_accepted (w_stats w) then add_n_rejected w else w in
          let w := set_w_follows_reject true w in
          let '(s, w) := if (n_accepted (w_stats w) =? 0) && Rltb 0 (m_first_reject (p_step P))
                         then (s, set_w_h_new (h * m_first_reject (p_step P))%R w)
                         else m_reject M s w h in
          var_loop P x1 n' false (mkD s w (d_out d) (d_x d) (d_y d) h (d_tr d ++ [Rejected]))
  end.

(** constants.rs:4 *)
Definition N_EQUAL_STEPS : nat := 10.

(** ode_solver.rs:197-216: (equal stepping, initial stepsize) *)
Definition initial_h (P : params) (x0 x1 : R) (h_equal : option R) : res (bool * R) :=
  match h_equal with
  | Some h_eq =>
    if Rltb h_eq (10 * EPSILON) then Err "h_equal must be >= 10.0 * f64::EPSILON"
    else Ok (true, ((x1 - x0) / INR (ceil_usize ((x1 - x0) / h_eq)))%R)
  | None =>
    if i_embedded (method_information (p_method P)) then Ok (false, Rmin (h_ini (p_step P)) (x1 - x0))
    else Ok (true, ((x1 - x0) / INR N_EQUAL_STEPS)%R)
  end.

(** ode_solver.rs:177-380 `OdeSolver::solve`; the result is the final state (solver, workspace,
    output, x, y) and whether the user stopped the run *)
Definition solve (P : params) (ndim : nat) (s : S) (w : workspace) (y0 : vec) (x0 x1 : R) (h_equal : option R)
    (oo : option output) : res (bool * dstate) :=
  if negb (length y0 =? ndim) then Err "y0.dim() must be equal to ndim"
  else if Rleb x1 x0 then Err "x1 must be greater than x0"
  else
    '(equal, h) <- initial_h P x0 x1 h_equal ;;
    _ <- assert_ (Rltb 0 h) ;;
    let w := workspace_reset h (rel_error_prev_min (p_step P)) w in
    '(s, oo) <- (match oo with
                 | None => Ok (s, None)
                 | Some o => o <- o_initialize x0 x1 (ps_save_results (p_stiff P)) o ;;
                             s <- (if with_dense_output o then m_enable_dense M s else Ok s) ;;
                             Ok (s, Some o)
                 end) ;;
    '(stop, oo) <- exec_opt s w h x0 y0 oo ;;
    let d := mkD s w oo x0 y0 h [] in
    if stop then Ok (true, d)
    else if equal then
      '(stop, d) <- equal_loop (ceil_usize ((x1 - x0) / h)) d ;;
      if stop then Ok (true, d)
      else oo <- last_opt (d_w d) (d_h d) (d_x d) (d_y d) (d_out d) ;;
           Ok (false, mkD (d_s d) (d_w d) oo (d_x d) (d_y d) (d_h d) (d_tr d))
    else
      '(e, d) <- var_loop P x1 (n_step_max (p_step P)) false d ;;
      match e with
      | Stopped => Ok (true, d)
      | _ => oo <- last_opt (d_w d) (d_h d) (d_x d) (d_y d) (d_out d) ;;
             match e with
             | Success => Ok (false, mkD (d_s d) (d_w d) oo (d_x d) (d_y d) (d_h d) (d_tr d))
             | _ => Err "variable stepping did not converge"
             end
      end.
End Driver.
Arguments mkD {S}.
Arguments d_s {S}. Arguments d_w {S}. Arguments d_out {S}. Arguments d_x {S}. Arguments d_y {S}. Arguments d_h {S}. Arguments d_tr {S}.
Arguments dense_loop {S}. Arguments dense_part {S}. Arguments o_execute {S}. Arguments exec_opt {S}.
Arguments equal_loop {S}. Arguments var_loop {S}. Arguments solve {S}.
