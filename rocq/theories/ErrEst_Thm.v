(** C109: the error estimates of the Chebyshev and Lagrange interpolants *)
From Coq Require Import Reals Lra Lia List String Psatz.
From Coquelicot Require Import Coquelicot.
From Verif Require Import Base RBase LabVec_Model LabVec_Thm Search_Model Poly InterpCheb_Model InterpCheb_Thm InterpLagrange_Model InterpLagrange_Thm ErrEst_Model.
Import ListNotations.
Open Scope R_scope.

(** the p-th of n equally spaced stations of [a, b] *)
Definition station (a b : R) (n p : nat) : R := a + INR p * ((b - a) / INR (n - 1)).

(** e is the largest of the numbers err p over the stations p < n that count,
    or zero if there is none *)
Definition is_largest (n : nat) (counts : nat -> Prop) (err : nat -> R -> Prop) (e : R) : Prop :=
  0 <= e /\ (forall p v, (p < n)%nat -> counts p -> err p v -> v <= e) /\
  (e = 0 \/ exists p, (p < n)%nat /\ counts p /\ err p e).

Lemma largest_step p counts err e v : is_largest p counts err e -> (forall w, err p w -> w = v) -> err p v -> counts p ->
  is_largest (S p) counts err (Rmax e v).
Proof.
  intros (H0 & H1 & H2) Hu Hv Hc. unfold is_largest. splits.
  - pose proof (Rmax_l e v). lra.
  - intros q w Hq Hcq Hw. destruct (Nat.eq_dec q p) as [->|]; [rewrite (Hu w Hw); apply Rmax_r|]. apply Rle_trans with e; [apply (H1 q); auto; lia|apply Rmax_l].
  - unfold Rmax. destruct (Rle_dec e v); [right; exists p; splits; auto|]. destruct H2 as [->|(q & Hq & K)]; [now left|right; exists q; split; [lia|auto]].
Qed.

Lemma largest_skip p counts err e : is_largest p counts err e -> ~ counts p -> is_largest (S p) counts err e.
Proof.
  intros (H0 & H1 & H2) Hc. unfold is_largest. splits; auto.
  - intros q w Hq Hcq Hw. destruct (Nat.eq_dec q p) as [->|]; [tauto|]. apply (H1 q); auto; lia.
  - destruct H2 as [->|(q & Hq & K)]; [now left|right; exists q; split; [lia|auto]].
Qed.

Lemma largest_0 counts err : is_largest 0 counts err 0.
Proof. unfold is_largest. splits; [lra|intros; lia|now left]. Qed.

Lemma stations_ok a b n : exists r, stations_of a b n = Ok r /\ length r = n /\ forall p, (p < n)%nat -> vget r p = Ok (station a b n p).
Proof.
  unfold stations_of, v_linspace. rewrite (C16_mapped_linspace_values _ _ _ _ _ _ _ INR) by reflexivity. cbn [unwrap].
  eexists. split; [reflexivity|]. split; [now rewrite map_length, seq_length|]. intros p Hp.
  rewrite (vget_ok _ _ 0) by (rewrite map_length, seq_length; lia). f_equal.
  match goal with |- nth p (map ?F _) _ = _ => rewrite (nth_indep _ 0 (F 0%nat)) by (rewrite map_length, seq_length; lia); rewrite (map_nth F), seq_nth by lia end.
  cbn [Nat.add]. unfold station. destruct (Nat.eqb_spec p 0) as [->|]; [cbn; ring|]. destruct (Nat.eqb_spec n 2) as [->|]; [|reflexivity].
  replace p with 1%nat by lia. cbn. field.
Qed.

Lemma station_range a b n p : a <= b -> (p < n)%nat -> a <= station a b n p <= b.
Proof.
  intros Hab Hp. unfold station. destruct (Nat.eq_dec n 1) as [->|]; [replace p with 0%nat by lia; cbn [INR]; lra|].
  assert (0 < INR (n - 1)) by (apply lt_0_INR; lia). assert (INR p <= INR (n - 1)) by (apply le_INR; lia). assert (0 <= INR p) by apply pos_INR.
  replace (INR p * ((b - a) / INR (n - 1))) with ((b - a) * (INR p / INR (n - 1))) by (field; lra).
  assert (0 <= INR p / INR (n - 1)) by (apply Rdiv_le_0_compat; lra).
  assert (INR p / INR (n - 1) <= 1) by (apply (Rmult_le_reg_r (INR (n - 1))); [lra|]; unfold Rdiv; rewrite Rmult_assoc, Rinv_l by lra; lra).
  nra.
Qed.

(* ------------------------------------------------------------------ *)
(** * Chebyshev *)

Lemma ic_eval_total s x : ic_wf s -> ic_ready s = true -> exists v, ic_eval s x = Ok v.
Proof.
  intros (_ & _ & _ & H & L & _) Hr. destruct (Nat.eq_dec (ic_nn s) 0) as [E|E].
  - exists (ic_constant_fx s). unfold ic_eval. now rewrite Hr, E.
  - eexists. apply C29_eval; auto; lia.
Qed.

(** the error at the station p *)
Definition ic_error (s : icheb) (g : R -> R) (n p : nat) (e : R) : Prop :=
  exists v, ic_eval s (station (ic_xa s) (ic_xb s) n p) = Ok v /\ e = Rabs (v - g (station (ic_xa s) (ic_xb s) n p)).

Section Cheb.
Context {A : Type} (s : icheb) (n : nat).
Hypothesis W : ic_wf s.
Hypothesis Hr : ic_ready s = true.
Local Notation x := (station (ic_xa s) (ic_xb s) n).

(** C109: when the callback answers g(x), the estimate is the largest |I(x) - g(x)|
    over n equally spaced stations of [xa, xb], and the callback is asked once at
    each of them, in order *)
Theorem C109_chebyshev (f : fnmut A) (g : R -> R) st : (forall st x, snd (f st x) = Ok (Num (g x))) ->
  exists e, ic_estimate_max_error s n f st = (fold_left (fun st p => fst (f st (x p))) (seq 0 n) st, Ok (Num e)) /\
    is_largest n (fun _ => True) (ic_error s g n) e.
Proof using W Hr.
  intros Hf. unfold ic_estimate_max_error. destruct (stations_ok (ic_xa s) (ic_xb s) n) as (r & -> & _ & Hg). cbn [pure].
  assert (K : forall c p e st, (p + c = n)%nat -> is_largest p (fun _ => True) (ic_error s g n) e ->
    exists e', ic_est_loop s f r c p (Num e) st = (fold_left (fun st p => fst (f st (x p))) (seq p c) st, Ok (Num e')) /\ is_largest n (fun _ => True) (ic_error s g n) e').
  { induction c as [|c IH]; intros p e st0 Hc He.
    - exists e. split; [reflexivity|]. assert (Q : p = n) by lia. rewrite Q in He. exact He.
    - cbn [ic_est_loop seq fold_left]. rewrite Hg by lia. cbn [pure]. destruct (ic_eval_total s (x p) W Hr) as (v & E). rewrite E. cbn [pure]. unfold call.
      specialize (Hf st0 (x p)). destruct (f st0 (x p)) as [st1 y]. cbn [fst snd] in *. subst y. cbn [nabs_diff nmax].
      apply IH; [lia|]. apply largest_step; auto; [|now exists v]. intros w (v' & E' & ->). congruence. }
  apply K; [lia|apply largest_0].
Qed.

(** C109: the estimate fails only when the callback does: whatever the callback
    answers, an error or panic of the estimate is that of a call at one of the
    stations, and no call follows it *)
Theorem C109_chebyshev_errors (f : fnmut A) st st' o : ic_estimate_max_error s n f st = (st', o) ->
  match o with
  | Ok _ => True
  | Err e => exists p st0, (p < n)%nat /\ f st0 (x p) = (st', Err e)
  | Panic => exists p st0, (p < n)%nat /\ f st0 (x p) = (st', Panic)
  end.
Proof using W Hr.
  unfold ic_estimate_max_error. destruct (stations_ok (ic_xa s) (ic_xb s) n) as (r & -> & _ & Hg). cbn [pure].
  assert (K : forall c p e st, (p + c = n)%nat -> ic_est_loop s f r c p e st = (st', o) ->
   match o with Ok _ => True | Err e => exists p st0, (p < n)%nat /\ f st0 (x p) = (st', Err e) | Panic => exists p st0, (p < n)%nat /\ f st0 (x p) = (st', Panic) end).
  { induction c as [|c IH]; intros p e st0 Hc; cbn [ic_est_loop].
    - intros E. injection E as _ <-. exact I.
    - rewrite Hg by lia. cbn [pure]. destruct (ic_eval_total s (x p) W Hr) as (v & E). rewrite E. cbn [pure]. unfold call.
      destruct (f st0 (x p)) as [st1 y] eqn:Ef. destruct y as [y|er|].
      + apply IH. lia.
      + intros Q. injection Q as <- <-. exists p, st0. split; [lia|auto].
      + intros Q. injection Q as <- <-. exists p, st0. split; [lia|auto]. }
  apply (K n 0%nat (Num 0) st). lia.
Qed.

(** C109 is refuted for callbacks that answer NaN: the maximum ignores NaN, and an
    interpolant compared with a reference solution that is NaN at every station is
    reported to have error zero *)
Theorem C109_nan_refuted (f : fnmut A) st : (forall st x, snd (f st x) = Ok NotANumber) ->
  snd (ic_estimate_max_error s n f st) = Ok (Num 0).
Proof using W Hr.
  intros Hf. unfold ic_estimate_max_error. destruct (stations_ok (ic_xa s) (ic_xb s) n) as (r & -> & _ & Hg). cbn [pure].
  assert (K : forall c p st, (p + c = n)%nat -> snd (ic_est_loop s f r c p (Num 0) st) = Ok (Num 0)).
  { induction c as [|c IH]; intros p st0 Hc; cbn [ic_est_loop]; [reflexivity|].
    rewrite Hg by lia. cbn [pure]. destruct (ic_eval_total s (x p) W Hr) as (v & E). rewrite E. cbn [pure]. unfold call.
    specialize (Hf st0 (x p)). destruct (f st0 (x p)) as [st1 y]. cbn [snd] in Hf. subst y. apply IH. lia. }
  apply K. lia.
Qed.
End Cheb.

(** C109: an interpolant without data answers an error before the callback is asked *)
Theorem C109_not_ready {A} (s : icheb) n (f : fnmut A) st : ic_ready s = false -> (1 <= n)%nat ->
  ic_estimate_max_error s n f st = (st, Err "the data or function must be set first"%string).
Proof.
  intros Hr Hn. unfold ic_estimate_max_error. destruct (stations_ok (ic_xa s) (ic_xb s) n) as (r & -> & _ & Hg). cbn [pure].
  destruct n as [|n]; [lia|]. cbn [ic_est_loop]. rewrite Hg by lia. cbn [pure]. unfold ic_eval. rewrite Hr. reflexivity.
Qed.

(** C109 is refuted for a station count of zero: it is accepted, and every interpolant
    has error zero, also one whose data was never set *)
Theorem C109_no_station_refuted {A} (s : icheb) (f : fnmut A) st : ic_estimate_max_error s 0 f st = (st, Ok (Num 0)).
Proof. unfold ic_estimate_max_error. destruct (stations_ok (ic_xa s) (ic_xb s) 0) as (r & -> & _). reflexivity. Qed.

(** C109: after set_function with a polynomial of degree at most N, the estimate
    against the same polynomial is zero, for every number of stations *)
Theorem C109_chebyshev_polynomial {A} s nn cb g l l' s' n (f : fnmut A) st : ic_wf s -> InterpCheb_Thm.answers cb g -> (1 <= nn <= ic_nn_max s)%nat ->
  ic_set_function s nn cb l = (l', (s', Ok tt)) -> is_poly (S nn) g -> (forall st x, snd (f st x) = Ok (Num (g x))) ->
  snd (ic_estimate_max_error s' n f st) = Ok (Num 0).
Proof.
  intros W Ha Hn E Hp Hf. destruct (C29_set_function s nn cb g l l' s' (Ok tt) W Ha ltac:(lia) E) as (W' & _ & Xa & Xb & _ & _ & _ & K). destruct (K eq_refl) as (Hr & _).
  destruct (C109_chebyshev s' n W' Hr f g st Hf) as (e & -> & _ & _ & H). cbn [snd]. do 2 f_equal. destruct H as [->|(p & Hp' & _ & v & Ev & ->)]; [reflexivity|].
  assert (Hx : ic_xa s <= station (ic_xa s') (ic_xb s') n p <= ic_xb s) by (rewrite Xa, Xb; apply station_range; auto; destruct W as (D & D0 & _); lra).
  rewrite (C29_polynomial_function s nn cb g l l' s' W Ha Hn E Hp _ Hx) in Ev. injection Ev as <-. rewrite Rminus_eq_0. apply Rabs_R0.
Qed.

(* ------------------------------------------------------------------ *)
(** * Lagrange *)

Lemma range_total {T} (F : nat -> T -> res T) hi t : (forall i u, (i < hi)%nat -> exists u', F i u = Ok u') -> exists t', for_range 0 hi F t = Ok t'.
Proof.
  intros H. destruct (for_range_inv (fun _ _ => True) F 0 hi t) as (t' & E & _); [lia|exact I| |now exists t'].
  intros i u Hi _. destruct (H i u) as (u' & E); [lia|]. now exists u'.
Qed.

Section Total.
Variable s : lagrange.
Hypothesis OK : lg_ok s.
Variable x : R.
Hypothesis Hx : -1 <= x <= 1.
Variable uu : list R.
Hypothesis Lu : length uu = S (lg_nn s).

Lemma gx j : (j < S (lg_nn s))%nat -> vget (lg_xx s) j = Ok (nth j (lg_xx s) 0).
Proof using OK. intros H. apply vget_ok. now rewrite (ok_lx s OK). Qed.
Lemma gl j : (j < S (lg_nn s))%nat -> vget (lg_lambda s) j = Ok (nth j (lg_lambda s) 0).
Proof using OK. intros H. apply vget_ok. now rewrite (ok_ll s OK). Qed.
Lemma gu j : (j < S (lg_nn s))%nat -> vget uu j = Ok (nth j uu 0).
Proof using Lu. intros H. apply vget_ok. now rewrite Lu. Qed.

Local Ltac gets := repeat first [rewrite gx by lia | rewrite gl by lia | rewrite gu by lia | progress cbn [bind unwrap]].
Local Ltac inside := destruct (Rltb_spec x (-1)); [lra|]; destruct (Rltb_spec 1 x); [lra|]; cbn [orb]; try rewrite Lu, Nat.eqb_refl; cbn [negb].

Lemma psi_total j : (j < S (lg_nn s))%nat -> exists v, lg_psi s j x = Ok v.
Proof using OK Hx Lu.
  intros Hj. unfold lg_psi. destruct (Nat.ltb_spec (lg_nn s) j); [lia|]. destruct (Rltb_spec x (-1)); [lra|]; destruct (Rltb_spec 1 x); [lra|]; cbn [orb].
  rewrite gx by lia. cbn [bind]. destruct (Rltb (Rabs (x - nth j (lg_xx s) 0)) DX_EPSILON); [eauto|].
  assert (E : exists o, lg_sum s x = Ok o).
  { unfold lg_sum. rewrite (ok_np s OK). apply range_total. intros i u Hi. rewrite gl, gx by lia. cbn [bind]. eauto. }
  destruct E as (o & ->). cbn [bind]. rewrite gl by lia. cbn [bind]. eauto.
Qed.

Lemma eval_total : exists v, lg_eval s x uu = Ok v.
Proof using OK Hx Lu.
  unfold lg_eval. rewrite (ok_np s OK). inside. apply range_total. intros i u Hi. gets. destruct (psi_total i Hi) as (v & ->). cbn [unwrap bind]. eauto.
Qed.

Lemma find_total c j : (j + c = S (lg_nn s))%nat -> exists o, lg_find (lg_xx s) x c j = Ok o /\ forall k, o = Some k -> (k < S (lg_nn s))%nat.
Proof using OK Hx Lu.
  revert j. induction c as [|c IH]; intros j Hj; cbn [lg_find]; [exists None; split; [reflexivity|discriminate]|].
  gets. destruct (Rltb _ _); [exists (Some j); split; [reflexivity|]; intros k [= <-]; lia|]. apply IH. lia.
Qed.

Lemma at_node_total : exists o, lg_at_node s x = Ok o /\ forall k, o = Some k -> (k < S (lg_nn s))%nat.
Proof using OK Hx Lu.
  unfold lg_at_node. destruct (Reqb x (-1)); [exists (Some 0%nat); split; [reflexivity|]; intros k [= <-]; lia|].
  destruct (Reqb x 1); [exists (Some (lg_nn s)); split; [reflexivity|]; intros k [= <-]; lia|]. rewrite (ok_np s OK). now apply find_total.
Qed.

Lemma deriv1_total : exists v, lg_eval_deriv1 s x uu = Ok v.
Proof using OK Hx Lu.
  unfold lg_eval_deriv1. rewrite (ok_np s OK). inside. destruct at_node_total as (o & -> & Ho). cbn [bind]. destruct o as [k|].
  - specialize (Ho k eq_refl). match goal with |- context [for_range 0 ?h ?F ?t] => destruct (range_total F h t) as (w & ->) end.
    + intros i u Hi. destruct (i =? k)%nat; [eauto|]. gets. eauto.
    + gets. eauto.
  - destruct eval_total as (v & ->). cbn [unwrap bind]. match goal with |- context [for_range 0 ?h ?F ?t] => destruct (range_total F h t) as ([w1 w2] & ->) end.
    + intros i [u1 u2] Hi. gets. eauto.
    + cbn [bind]. eauto.
Qed.

Lemma deriv2_total : exists v, lg_eval_deriv2 s x uu = Ok v.
Proof using OK Hx Lu.
  unfold lg_eval_deriv2. rewrite (ok_np s OK). inside. destruct at_node_total as (o & -> & Ho). cbn [bind]. destruct o as [k|].
  - specialize (Ho k eq_refl). match goal with |- context [for_range 0 ?h ?F ?t] => destruct (range_total F h t) as (w & ->) end.
    + intros i u Hi. destruct (i =? k)%nat; [eauto|]. gets. eauto.
    + gets. cbv zeta. match goal with |- context [for_range 0 ?h ?F ?t] => destruct (range_total F h t) as (w' & ->) end.
      * intros i u Hi. destruct (i =? k)%nat; [eauto|]. gets. cbv zeta. gets. eauto.
      * cbn [bind]. eauto.
  - destruct eval_total as (v & ->). destruct deriv1_total as (v1 & ->). cbn [unwrap bind]. match goal with |- context [for_range 0 ?h ?F ?t] => destruct (range_total F h t) as ([w1 w2] & ->) end.
    + intros i [u1 u2] Hi. gets. eauto.
    + cbn [bind]. eauto.
Qed.
End Total.

Lemma sample_ok {A U} (f : fnmut_r A) g (ret : list R -> A -> A * res U) xx : (forall st x, snd (f st x) = Ok (g x)) ->
  forall c k uu st, (k + c = length xx)%nat -> length uu = length xx -> (forall j, (j < k)%nat -> nth j uu 0 = g (nth j xx 0)) ->
  lg_sample f xx c k uu st ret = ret (map g xx) (fold_left (fun st j => fst (f st (nth j xx 0))) (seq k c) st).
Proof.
  intros Hf. induction c as [|c IH]; intros k uu st Hk Hl Hv.
  - cbn. f_equal. apply nth_ext with (d := 0) (d' := 0); [now rewrite map_length|]. intros j Hj. rewrite Hv by lia.
    rewrite (nth_indep (map g xx) 0 (g 0)) by (rewrite map_length; lia). now rewrite map_nth.
  - cbn [lg_sample seq fold_left]. rewrite (vget_ok _ _ 0) by lia. cbn [pure]. unfold call. specialize (Hf st (nth k xx 0)).
    destruct (f st (nth k xx 0)) as [st1 y]. cbn [fst snd] in *. subst y. rewrite vset_ok by lia. cbn [pure].
    apply IH; [lia|now rewrite upd_length|]. intros j Hj. destruct (Nat.eq_dec j k) as [->|].
    + rewrite nth_upd_eq by lia. reflexivity.
    + rewrite nth_upd_ne by lia. apply Hv. lia.
Qed.

(** the error of an evaluation of the interpolant of g at the station p, against r *)
Definition lg_error (s : lagrange) (ev : lagrange -> R -> list R -> res R) (g r : R -> R) (p : nat) (e : R) : Prop :=
  let x := station (-1) 1 (error_estimate_nstation (lg_params s)) p in
  exists v, ev s x (map g (lg_xx s)) = Ok v /\ e = Rabs (v - r x).

Section Lagrange.
Context {A : Type} (s : lagrange).
Hypothesis OK : lg_ok s.
Local Notation n := (error_estimate_nstation (lg_params s)).
Local Notation x := (station (-1) 1 n).

(** C109: when the callback answers g(x), the estimate is the largest |I(x) - g(x)|
    over the equally spaced stations of [-1, 1], where I interpolates g; the callback
    is asked once at each node and then once at each station *)
Theorem C109_lagrange (f : fnmut_r A) (g : R -> R) st : (forall st x, snd (f st x) = Ok (g x)) ->
  exists e, lg_estimate_max_error s f st =
      (fold_left (fun st y => fst (f st y)) (lg_xx s ++ map x (seq 0 n)) st, Ok e) /\
    is_largest n (fun _ => True) (lg_error s lg_eval g g) e.
Proof using OK.
  intros Hf. unfold lg_estimate_max_error. rewrite (ok_np s OK), <- (ok_lx s OK). rewrite (sample_ok f g _ _ Hf) by (rewrite ?repeat_length; auto; intros; lia).
  destruct (stations_ok (-1) 1 n) as (r & -> & _ & Hg). cbn [pure].
  assert (K : forall c p e st, (p + c = n)%nat -> is_largest p (fun _ => True) (lg_error s lg_eval g g) e ->
    exists e', lg_est_loop s (map g (lg_xx s)) f r c p e st = (fold_left (fun st y => fst (f st y)) (map x (seq p c)) st, Ok e') /\ is_largest n (fun _ => True) (lg_error s lg_eval g g) e').
  { induction c as [|c IH]; intros p e st0 Hc He.
    - exists e. split; [reflexivity|]. assert (Q : p = n) by lia. rewrite Q in He. exact He.
    - cbn [lg_est_loop seq map fold_left]. rewrite Hg by lia. cbn [pure].
      destruct (eval_total s OK (x p) (station_range (-1) 1 n p ltac:(lra) ltac:(lia)) (map g (lg_xx s))) as (v & E); [rewrite map_length; apply (ok_lx s OK)|].
      rewrite E. cbn [pure unwrap]. unfold call. specialize (Hf st0 (x p)). destruct (f st0 (x p)) as [st1 y]. cbn [fst snd] in *. subst y.
      apply IH; [lia|]. apply largest_step; auto; [|now exists v]. intros w (v' & E' & ->). congruence. }
  match goal with |- context [lg_est_loop _ _ _ _ _ _ _ ?st0] => destruct (K n 0%nat 0 st0 ltac:(lia) (largest_0 _ _)) as (e & -> & He) end.
  exists e. split; [|exact He]. f_equal. rewrite fold_left_app. f_equal.
  clear. assert (Q : forall (l l0 : list R) st, fold_left (fun st j => fst (f st (nth j (l0 ++ l) 0))) (seq (length l0) (length l)) st = fold_left (fun st y => fst (f st y)) l st).
  { induction l as [|a l IH]; intros l0 st0; [reflexivity|]. cbn [length seq fold_left]. rewrite app_nth2, Nat.sub_diag by lia. cbn [nth].
    specialize (IH (l0 ++ [a])%list (fst (f st0 a))). rewrite app_length in IH. cbn [length] in IH. rewrite Nat.add_1_r, <- app_assoc in IH. exact IH. }
  exact (Q (lg_xx s) [] st).
Qed.

(** the stations at which the derivatives are compared *)
Definition compared (exclude : bool) (p : nat) : Prop := exclude = true -> p <> 0%nat /\ p <> (n - 1)%nat.

(** C109: when the callbacks answer g, g1 and g2, estimate_max_error_all gives the largest
    error of the value over all stations, and of both derivatives over the stations that are
    not excluded; no callback failure means no failure *)
Theorem C109_lagrange_all exclude (f h1 h2 : fnmut_r A) (g g1 g2 : R -> R) st :
  (forall st x, snd (f st x) = Ok (g x)) -> (forall st x, snd (h1 st x) = Ok (g1 x)) -> (forall st x, snd (h2 st x) = Ok (g2 x)) ->
  exists e e1 e2, snd (lg_estimate_max_error_all s exclude f h1 h2 st) = Ok (e, e1, e2) /\
    is_largest n (fun _ => True) (lg_error s lg_eval g g) e /\
    is_largest n (compared exclude) (lg_error s lg_eval_deriv1 g g1) e1 /\
    is_largest n (compared exclude) (lg_error s lg_eval_deriv2 g g2) e2.
Proof using OK.
  intros Hf Hf1 Hf2. unfold lg_estimate_max_error_all. rewrite (ok_np s OK), <- (ok_lx s OK). rewrite (sample_ok f g _ _ Hf) by (rewrite ?repeat_length; auto; intros; lia).
  destruct (stations_ok (-1) 1 n) as (r & -> & _ & Hg). cbn [pure].
  match goal with |- context [lg_est_all_loop _ _ _ _ _ _ _ _ _ _ _ _ _ ?st0] => generalize st0 end.
  assert (K : forall c p e e1 e2 st, (p + c = n)%nat -> is_largest p (fun _ => True) (lg_error s lg_eval g g) e ->
    is_largest p (compared exclude) (lg_error s lg_eval_deriv1 g g1) e1 -> is_largest p (compared exclude) (lg_error s lg_eval_deriv2 g g2) e2 ->
    exists e' e1' e2', snd (lg_est_all_loop s (map g (lg_xx s)) exclude f h1 h2 n r c p e e1 e2 st) = Ok (e', e1', e2') /\ is_largest n (fun _ => True) (lg_error s lg_eval g g) e' /\
    is_largest n (compared exclude) (lg_error s lg_eval_deriv1 g g1) e1' /\ is_largest n (compared exclude) (lg_error s lg_eval_deriv2 g g2) e2').
  { induction c as [|c IH]; intros p e e1 e2 st0 Hc He He1 He2.
    - exists e, e1, e2. assert (Q : p = n) by lia. rewrite Q in He, He1, He2. splits; auto.
    - cbn [lg_est_all_loop]. rewrite Hg by lia. cbn [pure].
      assert (Rg : -1 <= x p <= 1) by (apply station_range; [lra|lia]). assert (Ln : length (map g (lg_xx s)) = S (lg_nn s)) by (rewrite map_length; apply (ok_lx s OK)).
      destruct (eval_total s OK (x p) Rg _ Ln) as (v & E). rewrite E. destruct (deriv1_total s OK (x p) Rg _ Ln) as (v1 & E1). rewrite E1. destruct (deriv2_total s OK (x p) Rg _ Ln) as (v2 & E2). rewrite E2.
      cbn [pure unwrap]. unfold call. specialize (Hf st0 (x p)). destruct (f st0 (x p)) as [st1 y]. cbn [snd] in *. subst y. cbv zeta.
      assert (Hs : is_largest (S p) (fun _ => True) (lg_error s lg_eval g g) (Rmax e (Rabs (v - g (x p))))).
      { apply largest_step; auto; [|now exists v]. intros w (v' & E' & ->). congruence. }
      destruct (exclude && ((p =? 0)%nat || (p =? n - 1)%nat))%bool eqn:B.
      + assert (NC : ~ compared exclude p).
        { apply andb_prop in B. destruct B as [B1 B2]. intros C. destruct (C B1) as [C1 C2]. apply Bool.orb_prop in B2. destruct B2 as [B2|B2]; apply Nat.eqb_eq in B2; auto. }
        apply IH; [lia|exact Hs| |].
        * apply largest_skip; assumption.
        * apply largest_skip; assumption.
      + assert (C : compared exclude p).
        { intros ->. cbn [andb] in B. apply Bool.orb_false_elim in B. destruct B as [B1 B2]. apply Nat.eqb_neq in B1, B2. auto. }
        specialize (Hf1 st1 (x p)). destruct (h1 st1 (x p)) as [st2 y1]. cbn [snd] in *. subst y1.
        specialize (Hf2 st2 (x p)). destruct (h2 st2 (x p)) as [st3 y2]. cbn [snd] in *. subst y2.
        apply IH; [lia|exact Hs| |]; apply largest_step; auto; try (now eexists; eauto); intros w (v' & E' & ->); congruence. }
  intros st0. apply K; [lia|apply largest_0..].
Qed.

(** C109: the estimate against a polynomial of degree at most N is zero when every station is
    a node or is farther than the tolerance from all nodes *)
Theorem C109_lagrange_polynomial (f : fnmut_r A) g st : is_poly (S (lg_nn s)) g -> (forall st x, snd (f st x) = Ok (g x)) ->
  (forall p, (p < n)%nat -> clear_of_nodes s (x p)) -> snd (lg_estimate_max_error s f st) = Ok 0.
Proof using OK.
  intros Hp Hf Hc. destruct (C109_lagrange f g st Hf) as (e & -> & _ & _ & H). cbn [snd]. f_equal. destruct H as [->|(p & Hp' & _ & v & Ev & ->)]; [reflexivity|].
  rewrite (C30_polynomial s OK g (x p) (map g (lg_xx s)) Hp) in Ev; [injection Ev as <-; rewrite Rminus_eq_0; apply Rabs_R0|rewrite map_length; apply (ok_lx s OK)| |now apply Hc].
  intros j Hj. rewrite (nth_indep _ 0 (g 0)) by (rewrite map_length, (ok_lx s OK); lia). rewrite map_nth. reflexivity.
Qed.
(** the outcome [o] with final state [st'] is a failure of a call of one of the callbacks *)
Definition from_call {T} (cbs : list (fnmut_r A)) (st' : A) (o : res T) : Prop :=
  match o with
  | Ok _ => True
  | Err e => exists f st0 y, In f cbs /\ -1 <= y <= 1 /\ f st0 y = (st', Err e)
  | Panic => exists f st0 y, In f cbs /\ -1 <= y <= 1 /\ f st0 y = (st', Panic)
  end.

Lemma call_from {U} cbs (f : fnmut_r A) st0 y (k : A -> R -> A * res U) st' o : In f cbs -> -1 <= y <= 1 ->
  call f st0 y k = (st', o) -> (forall st1 v, k st1 v = (st', o) -> from_call cbs st' o) -> from_call cbs st' o.
Proof using Type.
  intros Hi Hy E K. unfold call in E. destruct (f st0 y) as [st1 v] eqn:Ef. destruct v as [v|e|]; [now apply (K st1 v)|injection E as <- <-; cbn; now exists f, st0, y..].
Qed.

Lemma sample_from {U} cbs (f : fnmut_r A) (ret : list R -> A -> A * res U) st' o : In f cbs ->
  (forall uu st, length uu = S (lg_nn s) -> ret uu st = (st', o) -> from_call cbs st' o) ->
  forall c k uu st, (k + c = S (lg_nn s))%nat -> length uu = S (lg_nn s) -> lg_sample f (lg_xx s) c k uu st ret = (st', o) -> from_call cbs st' o.
Proof using OK.
  intros Hi Hret. induction c as [|c IH]; intros k uu st Hk Hl; cbn [lg_sample]; [now apply Hret|].
  rewrite (gx s OK) by lia. cbn [pure]. intros E. eapply call_from; [exact Hi|apply (ok_range s OK k); lia|exact E|]. cbv beta. intros st1 v E1.
  rewrite vset_ok in E1 by lia. cbn [pure] in E1. apply (IH (S k) (upd uu k v) st1); [lia|now rewrite upd_length|exact E1].
Qed.

(** C109: the estimates of the Lagrange interpolant fail only when a callback does, and no
    call follows that failure *)
Theorem C109_lagrange_errors (f : fnmut_r A) st st' o : lg_estimate_max_error s f st = (st', o) -> from_call [f] st' o.
Proof using OK.
  unfold lg_estimate_max_error. rewrite (ok_np s OK). apply (sample_from [f]); [now left| |lia|apply repeat_length].
  intros uu st0 Lu. destruct (stations_ok (-1) 1 n) as (r & -> & _ & Hg). cbn [pure].
  assert (K : forall c p e st, (p + c = n)%nat -> lg_est_loop s uu f r c p e st = (st', o) -> from_call [f] st' o); [|apply K; lia].
  induction c as [|c IH]; intros p e st1 Hc; cbn [lg_est_loop]; [intros [= _ <-]; exact I|].
  rewrite Hg by lia. cbn [pure]. assert (Rg : -1 <= x p <= 1) by (apply station_range; [lra|lia]).
  destruct (eval_total s OK (x p) Rg _ Lu) as (v & ->). cbn [pure unwrap]. intros E. eapply call_from; [now left|exact Rg|exact E|]. cbv beta. intros st2 y. apply IH. lia.
Qed.

Theorem C109_lagrange_all_errors exclude (f g h : fnmut_r A) st st' o : lg_estimate_max_error_all s exclude f g h st = (st', o) -> from_call [f; g; h] st' o.
Proof using OK.
  unfold lg_estimate_max_error_all. rewrite (ok_np s OK). apply (sample_from [f; g; h]); [now left| |lia|apply repeat_length].
  intros uu st0 Lu. destruct (stations_ok (-1) 1 n) as (r & -> & _ & Hg). cbn [pure].
  assert (K : forall c p e e1 e2 st, (p + c = n)%nat -> lg_est_all_loop s uu exclude f g h n r c p e e1 e2 st = (st', o) -> from_call [f; g; h] st' o); [|apply K; lia].
  induction c as [|c IH]; intros p e e1 e2 st1 Hc; cbn [lg_est_all_loop]; [intros [= _ <-]; exact I|].
  rewrite Hg by lia. cbn [pure]. assert (Rg : -1 <= x p <= 1) by (apply station_range; [lra|lia]).
  destruct (eval_total s OK (x p) Rg _ Lu) as (v & ->). destruct (deriv1_total s OK (x p) Rg _ Lu) as (v1 & ->). destruct (deriv2_total s OK (x p) Rg _ Lu) as (v2 & ->).
  cbn [pure unwrap]. intros E. eapply call_from; [now left|exact Rg|exact E|]. cbv beta zeta. intros st2 y.
  destruct (exclude && _)%bool; [apply IH; lia|]. intros E1.
  eapply call_from; [now right; left|exact Rg|exact E1|]. cbv beta. intros st3 y1 E2.
  eapply call_from; [now right; right; left|exact Rg|exact E2|]. cbv beta. intros st4 y2. apply IH. lia.
Qed.
End Lagrange.

(** non-vacuity: the estimate of the default interpolant compares both ends *)
Example lagrange_stations nn s : lg_new nn None = Ok s -> lg_ok s /\ station (-1) 1 (error_estimate_nstation (lg_params s)) 0 = -1 /\
  station (-1) 1 (error_estimate_nstation (lg_params s)) (error_estimate_nstation (lg_params s) - 1) = 1.
Proof.
  intros E. destruct (C30_new nn None) as (_ & _ & K). destruct (K s E) as (Ho & _ & Pp & _). rewrite Pp. splits; auto.
  - unfold station. cbn [INR]. ring.
  - unfold station. cbn [error_estimate_nstation ip_default]. field. apply not_0_INR. lia.
Qed.
(** non-vacuity: a quadratic set on [0, 2] *)
Example chebyshev_quadratic : exists s s', ic_new 3 0 2 = Ok s /\ snd (ic_set_function s 2 (fun _ x => Ok (x * x)) []) = (s', Ok tt) /\
  snd (ic_estimate_max_error s' 5 (fun (st : unit) x => (st, Ok (Num (x * x)))) tt) = Ok (Num 0).
Proof.
  destruct (ic_new 3 0 2) as [s| |] eqn:E; [|exfalso; revert E; unfold ic_new, TOL_RANGE; destruct (Rleb_spec 2 (0 + 1e-5)); [lra|discriminate]..].
  destruct (C29_new 3 0 2 s E) as (_ & W & _ & _ & _ & M). set (cb := fun (_ : calls) (x : R) => Ok (x * x)). exists s.
  destruct (ic_set_function s 2 cb []) as (l' & s' & o) eqn:Es. exists s'. assert (Ha : InterpCheb_Thm.answers cb (fun x => x * x)) by (intros l x y [= <-]; reflexivity).
  destruct (C29_set_function s 2 cb _ [] l' s' o W Ha ltac:(lia) Es) as (_ & _ & _ & _ & _ & _ & To & _). assert (To' := To ltac:(intros; eexists; reflexivity)). subst o.
  split; [reflexivity|]. split; [reflexivity|]. apply (C109_chebyshev_polynomial s 2 cb (fun x => x * x) [] l' s' 5 _ tt W Ha ltac:(lia) Es); [|reflexivity].
  exists [0; 0; 1]. split; [cbn; lia|]. intros x. cbn. ring.
Qed.

Print Assumptions C109_chebyshev.
Print Assumptions C109_lagrange_all.
Print Assumptions C109_lagrange_all_errors.
Print Assumptions C109_lagrange_polynomial.
