(** OdeSolver::solve reaches the end point (C53) and its statistics add up (C54), for any numerical
    method that respects the contract of the trait. *)
From Coq Require Import Lra Sorted.
From Verif Require Import Ode_Drv_Model Ode_Base_Thm.
Local Open Scope nat_scope.

(** * Specification *)

(** the attempts: what happened, pass after pass *)
Definition accepted_steps (tr : list attempt) : list (R * R * vec) :=
  flat_map (fun a => match a with Accepted h x y => [(h, x, y)] | _ => [] end) tr.
Definition xs_of (l : list (R * R * vec)) : list R := map (fun p => snd (fst p)) l.
Definition hs_of (l : list (R * R * vec)) : list R := map (fun p => fst (fst p)) l.
Definition is_accepted (a : attempt) : bool := match a with Accepted _ _ _ => true | _ => false end.
Definition is_rejected (a : attempt) : bool := match a with Rejected => true | _ => false end.
(** rejections, from the first acceptance on *)
Fixpoint rejected_after_first (seen : bool) (tr : list attempt) : nat :=
  match tr with
  | [] => 0
  | a :: t => (if is_rejected a && seen then 1 else 0) + rejected_after_first (seen || is_accepted a) t
  end.

Definition counters (w : workspace) : nat * nat * nat :=
  (n_steps (w_stats w), n_accepted (w_stats w), n_rejected (w_stats w)).

(** the contract of the trait: `step`, `accept` and `reject` leave the driver's counters alone and
    `accept` advances x by h *)
Record contract {S} (M : method_ops S) := mkContract {
  ct_step : forall s w x y h s' w', m_step M s w x y h = Ok (s', w') -> counters w' = counters w;
  ct_accept : forall s w x y h s' w' x' y', m_accept M s w x y h = Ok (s', w', x', y') -> counters w' = counters w /\ x' = (x + h)%R;
  ct_reject : forall s w h s' w', m_reject M s w h = (s', w') -> counters w' = counters w }.
Arguments ct_step {S M}. Arguments ct_accept {S M}. Arguments ct_reject {S M}.

(** a list of numbers above [a], strictly increasing *)
Fixpoint increasing_from (a : R) (l : list R) : Prop :=
  match l with [] => True | x :: t => (a < x)%R /\ increasing_from x t end.

(** * Loop rules *)
Section Rules.
Variable S : Type.
Variable M : method_ops S.
Variable all_finite : vec -> res unit.
Variable P : params.
Variable x1 : R.

Definition after_accept (h : R) (w : workspace) : workspace :=
  let w := if w_follows_reject w then set_w_h_new (Rmin (w_h_new w) h) w else w in
  let w := set_w_follows_reject false w in
  let w := set_w_h_prev h w in
  let w := set_w_rel_error_prev (Rmax (rel_error_prev_min (p_step P)) (w_rel_error w)) w in
  on_stats (set_h_accepted (w_h_new w)) w.
Definition after_reject (s : S) (h : R) (w : workspace) : S * workspace :=
  let w := if 0 <? n_accepted (w_stats w) then add_n_rejected w else w in
  let w := set_w_follows_reject true w in
  if (n_accepted (w_stats w) =? 0) && Rltb 0 (m_first_reject (p_step P))
  then (s, set_w_h_new (h * m_first_reject (p_step P))%R w) else m_reject M s w h.
Definition after_diverge (h : R) (w : workspace) : workspace :=
  set_w_h_new (h * w_h_mult w)%R (set_w_follows_reject true (set_w_diverging false w)).

Lemma var_loop_rule (I : bool -> dstate S -> Prop) (Q R0 : dstate S -> Prop) :
  (forall l d s w h, I l d -> (10 * EPSILON < x1 - d_x d)%R -> h = Rmin (w_h_new (d_w d)) (x1 - d_x d) -> (10 * EPSILON < h)%R ->
     m_step M (d_s d) (add_n_steps (d_w d)) (d_x d) (d_y d) h = Ok (s, w) -> w_diverging w = true ->
     I false (mkD s (after_diverge h w) (d_out d) (d_x d) (d_y d) h (d_tr d ++ [Diverged]))) ->
  (forall l d s w s' w' h, I l d -> (10 * EPSILON < x1 - d_x d)%R -> h = Rmin (w_h_new (d_w d)) (x1 - d_x d) -> (10 * EPSILON < h)%R ->
     m_step M (d_s d) (add_n_steps (d_w d)) (d_x d) (d_y d) h = Ok (s, w) -> w_diverging w = false -> (1 <= w_rel_error w)%R ->
     after_reject s h w = (s', w') ->
     I false (mkD s' w' (d_out d) (d_x d) (d_y d) h (d_tr d ++ [Rejected]))) ->
  (forall l d s w s' w' x y h stop oo, I l d -> (10 * EPSILON < x1 - d_x d)%R -> h = Rmin (w_h_new (d_w d)) (x1 - d_x d) -> (10 * EPSILON < h)%R ->
     m_step M (d_s d) (add_n_steps (d_w d)) (d_x d) (d_y d) h = Ok (s, w) -> w_diverging w = false -> (w_rel_error w < 1)%R ->
     m_accept M s (add_n_accepted w) (d_x d) (d_y d) h = Ok (s', w', x, y) -> all_finite y = Ok tt ->
     exec_opt M s' (after_accept h w') h x y (d_out d) = Ok (stop, oo) ->
     let d' := mkD s' (after_accept h w') oo x y h (d_tr d ++ [Accepted h x y]) in
     if stop then R0 d' else I (Rleb x1 (x + w_h_new (after_accept h w'))) d' /\ (l = true -> Q d')) ->
  forall n l d e d', I l d -> var_loop M all_finite P x1 n l d = Ok (e, d') ->
  match e with
  | Stopped => R0 d'
  | Exhausted => exists l, I l d'
  | Success => (exists l, I l d') /\ ((x1 - d_x d' <= 10 * EPSILON)%R \/ Q d')
  end.
Proof.
  intros Hd Hr Ha. induction n as [|n IH]; intros l d e d' HI E.
  { cbn in E. injection E as <- <-. eauto. }
  cbn [var_loop] in E.
  destruct (Rleb_spec (x1 - d_x d) (10 * EPSILON)) as [D|D].
  { injection E as <- <-. split; [eauto|tauto]. }
  destruct (Rleb_spec (Rmin (w_h_new (d_w d)) (x1 - d_x d)) (10 * EPSILON)) as [G|G]; [discriminate|].
  apply bind_ok in E as ([s w] & Es & E).
  destruct (w_diverging w) eqn:Ew.
  { eapply IH; [|exact E]. eapply Hd; eauto. }
  destruct (Rltb_spec (w_rel_error w) 1) as [L|L].
  - apply bind_ok in E as ([[[s' w'] x] y] & Eacc & E).
    apply bind_ok in E as ([] & Ef & E).
    apply bind_ok in E as ([stop oo] & Ee & E).
    specialize (Ha l d s w s' w' x y _ stop oo HI D eq_refl G Es Ew L Eacc Ef Ee). cbv zeta in Ha.
    destruct stop.
    + injection E as <- <-. exact Ha.
    + destruct Ha as [Hn Hq]. destruct l.
      * injection E as <- <-. split; [eauto|]. right. apply Hq. reflexivity.
      * eapply IH; [|exact E]. exact Hn.
  - change (if (n_accepted _ =? 0) && _ then _ else _) with (after_reject s (Rmin (w_h_new (d_w d)) (x1 - d_x d)) w) in E.
    destruct (after_reject s _ w) as [s' w'] eqn:Er.
    eapply IH; [|exact E]. eapply Hr; eauto.
Qed.

Lemma equal_loop_rule (I : nat -> dstate S -> Prop) (R0 : dstate S -> Prop) :
  (forall k d s w s' w' x y stop oo, I k d ->
     m_step M (d_s d) (add_n_steps (d_w d)) (d_x d) (d_y d) (d_h d) = Ok (s, w) ->
     m_accept M s (add_n_accepted w) (d_x d) (d_y d) (d_h d) = Ok (s', w', x, y) -> all_finite y = Ok tt ->
     exec_opt M s' w' (d_h d) x y (d_out d) = Ok (stop, oo) ->
     let d' := mkD s' w' oo x y (d_h d) (d_tr d ++ [Accepted (d_h d) x y]) in
     if stop then R0 d' else I (Datatypes.S k) d') ->
  forall n k d stop d', I k d -> equal_loop M all_finite n d = Ok (stop, d') ->
  if stop then R0 d' else I (k + n) d'.
Proof.
  intros Ha. induction n as [|n IH]; intros k d stop d' HI E.
  { cbn in E. injection E as <- <-. now rewrite Nat.add_0_r. }
  cbn [equal_loop] in E.
  apply bind_ok in E as ([s w] & Es & E).
  apply bind_ok in E as ([[[s' w'] x] y] & Eacc & E).
  apply bind_ok in E as ([] & Ef & E).
  apply bind_ok in E as ([st oo] & Ee & E).
  specialize (Ha k d s w s' w' x y st oo HI Es Eacc Ef Ee). cbv zeta in Ha.
  destruct st.
  - injection E as <- <-. exact Ha.
  - specialize (IH _ _ _ _ Ha E). destruct stop; [exact IH|]. now replace (k + Datatypes.S n) with (Datatypes.S k + n) by lia.
Qed.
End Rules.

(** * The invariant: counters and positions *)

Lemma accepted_app a b : accepted_steps (a ++ b) = accepted_steps a ++ accepted_steps b.
Proof. unfold accepted_steps. apply flat_map_app. Qed.

Lemma rejected_snoc tr a seen :
  rejected_after_first seen (tr ++ [a]) =
  rejected_after_first seen tr + (if is_rejected a && (seen || existsb is_accepted tr) then 1 else 0).
Proof.
  revert seen. induction tr as [|b tr IH]; intros seen.
  - cbn. rewrite orb_false_r. destruct (is_rejected a && seen); lia.
  - cbn [app rejected_after_first existsb]. rewrite IH. rewrite orb_assoc. lia.
Qed.

Lemma last_snoc {A} (l : list A) x d : last (l ++ [x]) d = x.
Proof. induction l as [|a l IH]; [reflexivity|]. cbn. destruct (l ++ [x]) eqn:E; [destruct l; discriminate|exact IH]. Qed.
Lemma last_default {A} (l : list A) d d' : l <> [] -> last l d = last l d'.
Proof. induction l as [|a [|b l] IH]; intros H; [congruence|reflexivity|]. cbn [last] in *. apply IH. discriminate. Qed.
Lemma last_cons_d {A} (l : list A) b d : last (b :: l) d = last l b.
Proof. destruct l; [reflexivity|]. cbn [last]. apply (last_default (a :: l)). discriminate. Qed.

Lemma increasing_snoc a l x : increasing_from a l -> (last l a < x)%R -> increasing_from a (l ++ [x]).
Proof.
  revert a. induction l as [|b l IH]; intros a H L; cbn [app increasing_from] in *; [cbn in L; tauto|].
  destruct H as [H1 H2]. split; [exact H1|]. apply IH; [exact H2|]. now rewrite last_cons_d in L.
Qed.

Lemma increasing_bound a l b : increasing_from a l -> (last l a <= b)%R -> Forall (fun x => (a < x <= b)%R) l.
Proof.
  revert a. induction l as [|c l IH]; intros a H L; [constructor|]. destruct H as [H1 H2].
  rewrite last_cons_d in L. specialize (IH c H2 L).
  assert (Hc : (c <= b)%R).
  { destruct l as [|e l]; [exact L|]. inversion IH; subst. lra. }
  constructor; [lra|]. eapply Forall_impl; [|exact IH]. cbn. intros; lra.
Qed.

(** counters and positions after the attempts [d_tr] of a run from [x0] *)
Definition run_ok {S} (x0 : R) (d : dstate S) : Prop :=
  n_steps (w_stats (d_w d)) = length (d_tr d) /\
  n_accepted (w_stats (d_w d)) = length (filter is_accepted (d_tr d)) /\
  n_rejected (w_stats (d_w d)) = rejected_after_first false (d_tr d) /\
  increasing_from x0 (xs_of (accepted_steps (d_tr d))) /\
  d_x d = last (xs_of (accepted_steps (d_tr d))) x0.

Lemma existsb_filter {A} (p : A -> bool) l : existsb p l = negb (length (filter p l) =? 0).
Proof. induction l as [|a l IH]; [reflexivity|]. cbn. destruct (p a); [reflexivity|exact IH]. Qed.

Lemma filter_snoc {A} (p : A -> bool) l x : filter p (l ++ [x]) = filter p l ++ (if p x then [x] else []).
Proof. rewrite filter_app. cbn. now destruct (p x). Qed.

Lemma run_ok_not_accepted {S} x0 (d : dstate S) (s : S) w h oo a :
  run_ok x0 d -> is_accepted a = false ->
  n_steps (w_stats w) = Datatypes.S (n_steps (w_stats (d_w d))) ->
  n_accepted (w_stats w) = n_accepted (w_stats (d_w d)) ->
  n_rejected (w_stats w) = n_rejected (w_stats (d_w d)) + (if is_rejected a && (0 <? n_accepted (w_stats (d_w d))) then 1 else 0) ->
  run_ok x0 (mkD s w oo (d_x d) (d_y d) h (d_tr d ++ [a])).
Proof.
  intros (H1 & H2 & H3 & H4 & H5) Ha E1 E2 E3. unfold run_ok. cbn [d_w d_tr d_x].
  assert (Ex : accepted_steps [a] = []) by (destruct a; [discriminate|reflexivity|reflexivity]).
  rewrite !accepted_app, Ex, !app_nil_r, app_length, filter_snoc, Ha, app_nil_r, rejected_snoc. cbn [length].
  splits; [lia|congruence| |exact H4|exact H5].
  rewrite E3, H3. cbn [orb]. rewrite existsb_filter, <- H2.
  replace (negb (n_accepted (w_stats (d_w d)) =? 0)) with (0 <? n_accepted (w_stats (d_w d)))
    by (destruct (n_accepted (w_stats (d_w d))); reflexivity). reflexivity.
Qed.

Lemma run_ok_accepted {S} x0 (d : dstate S) (s : S) w h oo y :
  run_ok x0 d -> (0 < h)%R ->
  n_steps (w_stats w) = Datatypes.S (n_steps (w_stats (d_w d))) ->
  n_accepted (w_stats w) = Datatypes.S (n_accepted (w_stats (d_w d))) ->
  n_rejected (w_stats w) = n_rejected (w_stats (d_w d)) ->
  run_ok x0 (mkD s w oo (d_x d + h)%R y h (d_tr d ++ [Accepted h (d_x d + h)%R y])).
Proof.
  intros (H1 & H2 & H3 & H4 & H5) Ha E1 E2 E3. unfold run_ok. cbn [d_w d_tr d_x].
  rewrite !accepted_app. unfold xs_of. rewrite map_app. cbn [accepted_steps flat_map app map fst snd].
  rewrite app_length, filter_snoc, app_length, rejected_snoc, last_snoc. cbn [length is_accepted is_rejected andb].
  splits; [lia|lia|lia| |reflexivity].
  apply increasing_snoc; [exact H4|]. unfold xs_of in H5. rewrite <- H5. lra.
Qed.

Section Claims.
Variable S : Type.
Variable M : method_ops S.
Variable all_finite : vec -> res unit.
Variable P : params.
Hypothesis CT : contract M.

Lemma counters_step s w x y h s' w' : m_step M s (add_n_steps w) x y h = Ok (s', w') ->
  n_steps (w_stats w') = Datatypes.S (n_steps (w_stats w)) /\ n_accepted (w_stats w') = n_accepted (w_stats w) /\
  n_rejected (w_stats w') = n_rejected (w_stats w).
Proof.
  intros E. apply (ct_step CT) in E. unfold counters in E. injection E as E1 E2 E3. rewrite E1, E2, E3.
  cbn. splits; [lia|reflexivity|reflexivity].
Qed.

Lemma counters_accept s w x y h s' w' x' y' : m_accept M s (add_n_accepted w) x y h = Ok (s', w', x', y') ->
  n_steps (w_stats w') = n_steps (w_stats w) /\ n_accepted (w_stats w') = Datatypes.S (n_accepted (w_stats w)) /\
  n_rejected (w_stats w') = n_rejected (w_stats w) /\ x' = (x + h)%R.
Proof.
  intros E. apply (ct_accept CT) in E as [E X]. unfold counters in E. injection E as E1 E2 E3. rewrite E1, E2, E3.
  cbn. splits; [reflexivity|lia|reflexivity|exact X].
Qed.

Lemma stats_after_accept h w : n_steps (w_stats (after_accept P h w)) = n_steps (w_stats w) /\
  n_accepted (w_stats (after_accept P h w)) = n_accepted (w_stats w) /\ n_rejected (w_stats (after_accept P h w)) = n_rejected (w_stats w).
Proof. unfold after_accept. destruct (w_follows_reject w); cbn; tauto. Qed.

Lemma stats_after_reject s h w s' w' : after_reject S M P s h w = (s', w') ->
  n_steps (w_stats w') = n_steps (w_stats w) /\ n_accepted (w_stats w') = n_accepted (w_stats w) /\
  n_rejected (w_stats w') = n_rejected (w_stats w) + (if 0 <? n_accepted (w_stats w) then 1 else 0).
Proof.
  unfold after_reject. intros E.
  destruct (0 <? n_accepted (w_stats w)) eqn:En; cbv zeta in E;
  destruct (_ && _); [injection E as <- <-| |injection E as <- <-|]; cbn; splits; try lia;
  apply (ct_reject CT) in E; unfold counters in E; injection E as E1 E2 E3; rewrite ?E1, ?E2, ?E3; cbn; lia.
Qed.

(** the invariant of the variable stepping loop *)
Definition var_inv (x0 x1 : R) (l : bool) (d : dstate S) : Prop :=
  run_ok x0 d /\ (d_x d <= x1)%R /\ (l = true -> (x1 <= d_x d + w_h_new (d_w d))%R).

Lemma var_loop_inv x0 x1 n d e d' : var_inv x0 x1 false d -> var_loop M all_finite P x1 n false d = Ok (e, d') ->
  run_ok x0 d' /\ (d_x d' <= x1)%R /\ (e = Success -> (x1 - d_x d' <= 10 * EPSILON)%R).
Proof.
  intros HI E.
  pose proof eps_pos as Hep.
  assert (G : match e with
    | Stopped => run_ok x0 d' /\ (d_x d' <= x1)%R
    | Exhausted => exists l, var_inv x0 x1 l d'
    | Success => (exists l, var_inv x0 x1 l d') /\ ((x1 - d_x d' <= 10 * EPSILON)%R \/ d_x d' = x1) end).
  { revert E. apply (var_loop_rule S M all_finite P x1 (var_inv x0 x1) (fun d => d_x d = x1) (fun d => run_ok x0 d /\ (d_x d <= x1)%R)); [| | |exact HI].
    - intros l d0 s w h (H1 & H2 & H3) Hdx Eh Hh Es Ew. unfold var_inv. cbn [d_x d_w].
      destruct (counters_step _ _ _ _ _ _ _ Es) as (C1 & C2 & C3).
      splits; [|exact H2|discriminate].
      apply run_ok_not_accepted; [exact H1|reflexivity|exact C1|exact C2|cbn [is_rejected andb]; rewrite Nat.add_0_r; exact C3].
    - intros l d0 s w s' w' h (H1 & H2 & H3) Hdx Eh Hh Es Ew He Er. unfold var_inv. cbn [d_x d_w].
      destruct (counters_step _ _ _ _ _ _ _ Es) as (C1 & C2 & C3).
      destruct (stats_after_reject _ _ _ _ _ Er) as (F1 & F2 & F3).
      splits; [|exact H2|discriminate].
      apply run_ok_not_accepted; [exact H1|reflexivity|congruence|congruence|]. rewrite F3, C3, C2. reflexivity.
    - intros l d0 s w s' w' x y h stop oo (H1 & H2 & H3) Hdx Eh Hh Es Ew He Eacc Ef Ee. cbv zeta.
      destruct (counters_step _ _ _ _ _ _ _ Es) as (C1 & C2 & C3).
      destruct (counters_accept _ _ _ _ _ _ _ _ _ Eacc) as (F1 & F2 & F3 & ->).
      destruct (stats_after_accept h w') as (K1 & K2 & K3).
      assert (Hr : run_ok x0 (mkD s' (after_accept P h w') oo (d_x d0 + h)%R y h (d_tr d0 ++ [Accepted h (d_x d0 + h)%R y]))).
      { apply run_ok_accepted; [exact H1|lra|congruence|congruence|congruence]. }
      assert (Hle : (h <= x1 - d_x d0)%R) by (rewrite Eh; apply Rmin_r).
      destruct stop; [split; [exact Hr|cbn; lra]|].
      split.
      + unfold var_inv. cbn [d_x d_w]. splits; [exact Hr|lra|]. intros L. now apply Rleb_true in L.
      + intros ->. cbn [d_x]. specialize (H3 eq_refl). rewrite Eh, Rmin_right by lra. lra. }
  destruct e.
  - destruct G. splits; [assumption|assumption|discriminate].
  - destruct G as [[l (A1 & A2 & A3)] B]. splits; [exact A1|exact A2|]. intros _. destruct B; lra.
  - destruct G as [l (A1 & A2 & A3)]. splits; [exact A1|exact A2|discriminate].
Qed.

(** C54: all counters start from zero whatever the workspace contained before *)
Theorem C54_reset h r w : workspace_reset h r w =
  mkWork (mkStats 0 0 0 0 0 0 0 0 0 h) false false 1%R h h r 0%R None 0%R 0 0 false.
Proof. reflexivity. Qed.

Lemma equal_loop_inv x0 n d stop d' : run_ok x0 d -> (0 < d_h d)%R -> equal_loop M all_finite n d = Ok (stop, d') ->
  run_ok x0 d' /\ d_h d' = d_h d /\
  exists k, k <= n /\ (stop = false -> k = n) /\ d_x d' = (d_x d + INR k * d_h d)%R /\
    exists ys, d_tr d' = d_tr d ++ map (fun j => Accepted (d_h d) (d_x d + INR (j + 1) * d_h d)%R (nth j ys [])) (seq 0 k).
Proof.
  intros Hr Hh. 
  remember (d_h d) as h eqn:Eh. remember (d_x d) as x eqn:Ex. 
  set (I := fun k (e : dstate S) => run_ok x0 e /\ d_h e = h /\ d_x e = (x + INR k * h)%R /\
    exists ys, length ys = k /\ d_tr e = d_tr d ++ map (fun j => Accepted h (x + INR (j + 1) * h)%R (nth j ys [])) (seq 0 k)).
  assert (I0 : I 0 d).
  { unfold I. splits; [exact Hr|congruence|cbn; lra|]. exists []. cbn. split; [reflexivity|now rewrite app_nil_r]. }
  assert (Step : forall k e s w s' w' x' y stop oo, I k e ->
     m_step M (d_s e) (add_n_steps (d_w e)) (d_x e) (d_y e) (d_h e) = Ok (s, w) ->
     m_accept M s (add_n_accepted w) (d_x e) (d_y e) (d_h e) = Ok (s', w', x', y) -> all_finite y = Ok tt ->
     exec_opt M s' w' (d_h e) x' y (d_out e) = Ok (stop, oo) ->
     I (Datatypes.S k) (mkD s' w' oo x' y (d_h e) (d_tr e ++ [Accepted (d_h e) x' y]))).
  { intros k e s w s' w' x' y st oo (H1 & H2 & H3 & ys & Hy & H4) Es Eacc Ef Ee.
    destruct (counters_step _ _ _ _ _ _ _ Es) as (C1 & C2 & C3).
    destruct (counters_accept _ _ _ _ _ _ _ _ _ Eacc) as (F1 & F2 & F3 & ->).
    unfold I. cbn [d_h d_x d_tr]. splits.
    - apply run_ok_accepted; [exact H1|lra|congruence|congruence|congruence].
    - exact H2.
    - rewrite H3, H2, S_INR. lra.
    - exists (ys ++ [y]). split; [rewrite app_length; cbn; lia|].
      rewrite H4, H2, H3. rewrite <- app_assoc. f_equal.
      rewrite seq_S, map_app. cbn [map plus]. f_equal.
      + apply map_ext_in. intros j Hj. apply in_seq in Hj. rewrite app_nth1 by lia. reflexivity.
      + rewrite app_nth2 by lia. rewrite Hy, Nat.sub_diag. cbn [nth]. do 2 f_equal.
        rewrite plus_INR. cbn [INR]. lra. }
  revert d' stop. 
  assert (Gen : forall n k e stop d', I k e -> equal_loop M all_finite n e = Ok (stop, d') -> exists j, k <= j <= k + n /\ (stop = false -> j = k + n) /\ I j d').
  { intros m. induction m as [|m IH]; intros k e stop d' HI E.
    { cbn in E. injection E as <- <-. exists k. splits; [lia|lia|lia|exact HI]. }
    cbn [equal_loop] in E.
    apply bind_ok in E as ([s w] & Es & E).
    apply bind_ok in E as ([[[s' w'] x'] y] & Eacc & E).
    apply bind_ok in E as ([] & Ef & E).
    apply bind_ok in E as ([st oo] & Ee & E).
    pose proof (Step k e s w s' w' x' y st oo HI Es Eacc Ef Ee) as H1.
    destruct st.
    - injection E as <- <-. exists (Datatypes.S k). splits; [lia|lia|discriminate|exact H1].
    - destruct (IH _ _ _ _ H1 E) as (j & J1 & J2 & J3). exists j. splits; [lia|lia| |exact J3]. intros Hs. rewrite (J2 Hs). lia. }
  intros d' stop E. destruct (Gen n 0 d stop d' I0 E) as (k & K1 & K2 & (H1 & H2 & H3 & ys & Hy & H4)).
  splits; [exact H1|exact H2|]. exists k. splits; [lia|exact K2|exact H3|]. exists ys. exact H4.
Qed.

Lemma ceil_usize_INR n : ceil_usize (INR n) = n.
Proof.
  unfold ceil_usize, Int_part. rewrite <- (tech_up (- INR n) (1 - Z.of_nat n)).
  - lia.
  - rewrite minus_IZR, <- INR_IZR_INZ. lra.
  - rewrite minus_IZR, <- INR_IZR_INZ. lra.
Qed.

Lemma ceil_usize_spec r : (0 < r)%R -> 1 <= ceil_usize r /\ (r <= INR (ceil_usize r) < r + 1)%R.
Proof.
  intros Hr. unfold ceil_usize. pose proof (base_Int_part (- r)) as [A B].
  assert (Hz : (0 < - Int_part (- r))%Z).
  { apply Z.opp_pos_neg. apply lt_IZR. lra. }
  split; [lia|]. rewrite INR_IZR_INZ, Z2Nat.id by lia. rewrite opp_IZR. lra.
Qed.

(** what `solve` does, as one statement: the accepted x values are strictly increasing and never
    pass x1; the counters add up; and without a stop request by the user the end point is reached *)
Lemma solve_inv ndim s w y0 x0 x1 h_equal oo stop d :
  solve M all_finite P ndim s w y0 x0 x1 h_equal oo = Ok (stop, d) ->
  run_ok x0 d /\ (x0 < x1)%R /\ (d_x d <= x1)%R /\ (stop = false -> (x1 - d_x d <= 10 * EPSILON)%R).
Proof.
  unfold solve. destruct (negb (length y0 =? ndim)); [discriminate|].
  destruct (Rleb_spec x1 x0) as [|Hx]; [discriminate|]. intros E.
  apply bind_ok in E as ([eq h] & Eh & E).
  apply bind_ok in E as ([] & Ep & E).
  assert (Hh : (0 < h)%R) by (unfold assert_ in Ep; destruct (Rltb_spec 0 h); [assumption|discriminate]).
  apply bind_ok in E as ([s1 oo1] & E1 & E).
  apply bind_ok in E as ([st oo2] & E2 & E).
  assert (R0 : run_ok x0 (mkD s1 (workspace_reset h (rel_error_prev_min (p_step P)) w) oo2 x0 y0 h [])).
  { unfold run_ok. cbn. tauto. }
  pose proof eps_pos as Hep.
  destruct st.
  { injection E as <- <-. cbn [d_x]. splits; [exact R0|exact Hx|lra|discriminate]. }
  destruct eq.
  - apply bind_ok in E as ([st2 d2] & E3 & E).
    destruct (equal_loop_inv x0 _ _ _ _ R0 Hh E3) as (A1 & A2 & k & A3 & A4 & A5 & ys & A6). cbn [d_x d_h] in *.
    assert (Hn : exists n, 1 <= n /\ h = ((x1 - x0) / INR n)%R).
    { unfold initial_h in Eh. destruct h_equal as [he|].
      - destruct (Rltb_spec he (10 * EPSILON)); [discriminate|]. injection Eh as <-.
        exists (ceil_usize ((x1 - x0) / he)). split; [|reflexivity]. apply ceil_usize_spec. apply Rdiv_lt_0_compat; lra.
      - destruct (i_embedded _); [discriminate|]. injection Eh as <-. exists N_EQUAL_STEPS. split; [unfold N_EQUAL_STEPS; lia|reflexivity]. }
    destruct Hn as (n & Hn & Hhn).
    assert (Hn0 : (0 < INR n)%R) by (apply lt_0_INR; lia).
    assert (Hc : ceil_usize ((x1 - x0) / h) = n).
    { rewrite Hhn. replace ((x1 - x0) / ((x1 - x0) / INR n))%R with (INR n) by (field; lra). apply ceil_usize_INR. }
    rewrite Hc in *.
    assert (Hxd : (d_x d2 <= x1)%R /\ (st2 = false -> d_x d2 = x1)).
    { rewrite A5. assert (Hk : (INR k <= INR n)%R) by (apply le_INR; exact A3).
      assert (Hhx : (INR n * h = x1 - x0)%R) by (rewrite Hhn; field; lra).
      split; [nra|]. intros Hs. rewrite (A4 Hs). lra. }
    destruct Hxd as [B1 B2].
    destruct st2.
    + injection E as <- <-. splits; [exact A1|exact Hx|exact B1|discriminate].
    + apply bind_ok in E as (oo3 & E4 & E). injection E as <- <-.
      splits; [exact A1|exact Hx|cbn; exact B1|]. intros _. cbn [d_x]. rewrite B2 by reflexivity. lra.
  - apply bind_ok in E as ([e d2] & E3 & E).
    assert (V0 : var_inv x0 x1 false (mkD s1 (workspace_reset h (rel_error_prev_min (p_step P)) w) oo2 x0 y0 h [])).
    { unfold var_inv. cbn [d_x]. splits; [exact R0|lra|discriminate]. }
    destruct (var_loop_inv _ _ _ _ _ _ V0 E3) as (A1 & A2 & A3).
    destruct e.
    + injection E as <- <-. splits; [exact A1|exact Hx|exact A2|discriminate].
    + apply bind_ok in E as (oo3 & E4 & E). injection E as <- <-.
      splits; [exact A1|exact Hx|exact A2|]. intros _. cbn [d_x]. apply A3. reflexivity.
    + apply bind_ok in E as (oo3 & E4 & E). discriminate.
Qed.

(** C53: Ok without a stop request: x1 is reached up to the documented 10 epsilon *)
Theorem C53_reaches_end ndim s w y0 x0 x1 h_equal oo d :
  solve M all_finite P ndim s w y0 x0 x1 h_equal oo = Ok (false, d) ->
  (x1 - 10 * EPSILON <= d_x d <= x1)%R.
Proof. intros E. destruct (solve_inv _ _ _ _ _ _ _ _ _ _ E) as (_ & _ & A & B). specialize (B eq_refl). lra. Qed.

(** C53: the accepted x values are strictly increasing, lie in (x0, x1] and the last is the final x *)
Theorem C53_monotone ndim s w y0 x0 x1 h_equal oo stop d :
  solve M all_finite P ndim s w y0 x0 x1 h_equal oo = Ok (stop, d) ->
  increasing_from x0 (xs_of (accepted_steps (d_tr d))) /\
  Forall (fun x => (x0 < x <= x1)%R) (xs_of (accepted_steps (d_tr d))) /\
  d_x d = last (xs_of (accepted_steps (d_tr d))) x0.
Proof.
  intros E. destruct (solve_inv _ _ _ _ _ _ _ _ _ _ E) as ((_ & _ & _ & A & B) & _ & C & _).
  splits; [exact A| |exact B]. apply increasing_bound; [exact A|]. rewrite <- B. exact C.
Qed.

Lemma all_accepted_filter {A} h (g : A -> R) (z : A -> vec) l :
  filter is_accepted (map (fun j => Accepted h (g j) (z j)) l) = map (fun j => Accepted h (g j) (z j)) l.
Proof. induction l as [|a l IH]; [reflexivity|]. cbn. f_equal. exact IH. Qed.
Lemma all_accepted_steps {A} h (g : A -> R) (z : A -> vec) l :
  accepted_steps (map (fun j => Accepted h (g j) (z j)) l) = map (fun j => (h, g j, z j)) l.
Proof. induction l as [|a l IH]; [reflexivity|]. cbn. f_equal. exact IH. Qed.
Lemma all_accepted_rejected {A} h (g : A -> R) (z : A -> vec) l b :
  rejected_after_first b (map (fun j => Accepted h (g j) (z j)) l) = 0.
Proof. revert b. induction l as [|a l IH]; intros b; [reflexivity|]. cbn. apply IH. Qed.

(** C53: equal stepping: with h_equal the interval is cut in ceil((x1-x0)/h_equal) equal steps (10 by
    default), all of them are made, and the end point is x1 exactly *)
Theorem C53_equal_steps ndim s w y0 x0 x1 h_equal oo d :
  (h_equal = None -> i_embedded (method_information (p_method P)) = false) ->
  solve M all_finite P ndim s w y0 x0 x1 h_equal oo = Ok (false, d) ->
  let n := match h_equal with Some he => ceil_usize ((x1 - x0) / he) | None => 10 end in
  let h := ((x1 - x0) / INR n)%R in
  1 <= n /\ d_x d = x1 /\
  n_steps (w_stats (d_w d)) = n /\ n_accepted (w_stats (d_w d)) = n /\ n_rejected (w_stats (d_w d)) = 0 /\
  hs_of (accepted_steps (d_tr d)) = repeat h n /\
  xs_of (accepted_steps (d_tr d)) = map (fun j => (x0 + INR (j + 1) * h)%R) (seq 0 n).
Proof.
  intros Hm E n h. pose proof (solve_inv _ _ _ _ _ _ _ _ _ _ E) as (HR & _ & _ & _).
  unfold solve in E. destruct (negb (length y0 =? ndim)); [discriminate|].
  destruct (Rleb_spec x1 x0) as [|Hx]; [discriminate|].
  apply bind_ok in E as ([eq h'] & Eh & E).
  assert (Hn : 1 <= n /\ eq = true /\ h' = h).
  { unfold initial_h in Eh. unfold h, n. pose proof eps_pos. destruct h_equal as [he|].
    - destruct (Rltb_spec he (10 * EPSILON)); [discriminate|]. injection Eh as <- <-. splits; try reflexivity.
      apply ceil_usize_spec. apply Rdiv_lt_0_compat; lra.
    - rewrite Hm in Eh by reflexivity. injection Eh as <- <-. splits; [lia|reflexivity|reflexivity]. }
  destruct Hn as (Hn & -> & ->).
  assert (Hn0 : (0 < INR n)%R) by (apply lt_0_INR; lia).
  assert (Hh : (0 < h)%R) by (unfold h; apply Rdiv_lt_0_compat; lra).
  apply bind_ok in E as ([] & Ep & E).
  apply bind_ok in E as ([s1 oo1] & E1 & E).
  apply bind_ok in E as ([st oo2] & E2 & E).
  destruct st; [discriminate|].
  apply bind_ok in E as ([st2 d2] & E3 & E).
  assert (Hc : ceil_usize ((x1 - x0) / h) = n).
  { unfold h. replace ((x1 - x0) / ((x1 - x0) / INR n))%R with (INR n) by (field; lra). apply ceil_usize_INR. }
  rewrite Hc in E3.
  apply (equal_loop_inv x0) in E3; [|unfold run_ok; cbn; tauto|exact Hh].
  destruct E3 as (A1 & A2 & k & A3 & A4 & A5 & ys & A6). cbn [d_x d_h d_tr app] in *.
  destruct st2; [discriminate|]. specialize (A4 eq_refl). subst k.
  apply bind_ok in E as (oo3 & E4 & E). injection E as <-. cbn [d_x d_w d_tr] in *.
  assert (Hl : length (d_tr d2) = n) by (rewrite A6, map_length, seq_length; reflexivity).
  assert (Hf : filter is_accepted (d_tr d2) = d_tr d2) by (rewrite A6; apply all_accepted_filter).
  assert (Hrej : rejected_after_first false (d_tr d2) = 0) by (rewrite A6; apply all_accepted_rejected).
  destruct A1 as (Q1 & Q2 & Q3 & Q4 & Q5).
  splits; try (rewrite ?Q1, ?Q2, ?Q3, ?Hf; lia).
  - rewrite A5. unfold h. field. lra.
  - rewrite A6, all_accepted_steps. unfold hs_of. rewrite map_map. cbn [fst].
    rewrite <- (seq_length n 0) at 2. generalize (seq 0 n). clear. intros l. induction l as [|a l IH]; [reflexivity|]. cbn. f_equal. apply IH.
  - rewrite A6, all_accepted_steps. unfold xs_of. rewrite map_map. reflexivity.
Qed.

(** C54: the statistics are those of the attempts made in this run, whatever the workspace was before *)
Theorem C54_counts ndim s w y0 x0 x1 h_equal oo stop d :
  solve M all_finite P ndim s w y0 x0 x1 h_equal oo = Ok (stop, d) ->
  n_steps (w_stats (d_w d)) = length (d_tr d) /\
  n_accepted (w_stats (d_w d)) = length (accepted_steps (d_tr d)) /\
  n_rejected (w_stats (d_w d)) = rejected_after_first false (d_tr d) /\
  n_accepted (w_stats (d_w d)) + n_rejected (w_stats (d_w d)) <= n_steps (w_stats (d_w d)).
Proof.
  intros E. destruct (solve_inv _ _ _ _ _ _ _ _ _ _ E) as ((A & B & C & _) & _).
  assert (L : forall tr, length (filter is_accepted tr) = length (accepted_steps tr)).
  { induction tr as [|a tr IH]; [reflexivity|]. destruct a; cbn; rewrite ?IH; reflexivity. }
  splits; [exact A|now rewrite B, L|exact C|].
  rewrite A, B, C. clear. generalize false. induction (d_tr d) as [|a l IH]; intros b; [cbn; lia|].
  cbn [rejected_after_first filter length]. specialize (IH (b || is_accepted a)). destruct a; cbn [is_accepted is_rejected andb length] in *; [lia| |lia].
  destruct b; cbn in *; lia.
Qed.

(** C54: without diverging iterations n_steps = n_accepted + n_rejected + the rejections before the
    first acceptance (those are not counted) *)
Theorem C54_no_divergence ndim s w y0 x0 x1 h_equal oo stop d :
  solve M all_finite P ndim s w y0 x0 x1 h_equal oo = Ok (stop, d) ->
  ~ In Diverged (d_tr d) ->
  exists early, n_steps (w_stats (d_w d)) = n_accepted (w_stats (d_w d)) + n_rejected (w_stats (d_w d)) + early /\
    firstn early (d_tr d) = repeat Rejected early /\
    (early < length (d_tr d) -> exists h x y, nth_error (d_tr d) early = Some (Accepted h x y)).
Proof.
  intros E Hd. destruct (solve_inv _ _ _ _ _ _ _ _ _ _ E) as ((A & B & C & _) & _). rewrite A, B, C. clear - Hd.
  assert (T : forall tr, ~ In Diverged tr -> length tr = length (filter is_accepted tr) + rejected_after_first true tr).
  { induction tr as [|a tr IH]; intros H; [reflexivity|]. cbn [length filter rejected_after_first]. rewrite orb_true_l.
    assert (H' : ~ In Diverged tr) by (intros F; apply H; now right). specialize (IH H').
    destruct a; cbn [is_accepted is_rejected andb length]; [lia|lia|]. exfalso. apply H. now left. }
  induction (d_tr d) as [|a tr IH]; [exists 0; cbn; splits; [reflexivity|reflexivity|lia]|].
  assert (H' : ~ In Diverged tr) by (intros F; apply Hd; now right).
  destruct a as [h x y| |].
  - exists 0. cbn [length filter is_accepted rejected_after_first is_rejected andb orb firstn repeat nth_error].
    rewrite (T tr H') at 1. splits; [lia|reflexivity|eauto].
  - destruct (IH H') as (e & E1 & E2 & E3). exists (Datatypes.S e).
    cbn [length filter is_accepted rejected_after_first is_rejected andb orb firstn repeat nth_error]. rewrite E2.
    splits; [lia|reflexivity|]. intros L. apply E3. lia.
  - exfalso. apply Hd. now left.
Qed.

(** C53: the driver itself never panics without output (whatever the statistics and errors are) *)
Definition total {S} (N : method_ops S) : Prop :=
  (forall s w x y h, m_step N s w x y h <> Panic) /\ (forall s w x y h, m_accept N s w x y h <> Panic).

Lemma bind_no_panic {A B} (x : res A) (k : A -> res B) : x <> Panic -> (forall a, x = Ok a -> k a <> Panic) -> bind x k <> Panic.
Proof. destruct x; cbn; intros H1 H2; [now apply H2|discriminate|congruence]. Qed.

Theorem C53_no_panic ndim s w y0 x0 x1 h_equal :
  total M -> (forall y, all_finite y <> Panic) -> (0 < h_ini (p_step P))%R ->
  solve M all_finite P ndim s w y0 x0 x1 h_equal None <> Panic.
Proof.
  intros [T1 T2] Tf Hi. unfold solve. destruct (negb _); [discriminate|].
  destruct (Rleb_spec x1 x0) as [|Hx]; [discriminate|].
  assert (Hv : forall n l d, d_out d = None -> var_loop M all_finite P x1 n l d <> Panic /\
    forall e d', var_loop M all_finite P x1 n l d = Ok (e, d') -> d_out d' = None).
  { induction n as [|n IH]; intros l d Hd; [cbn; split; [discriminate|intros e d' E; injection E as <- <-; exact Hd]|].
    cbn [var_loop]. destruct (Rleb _ _); [split; [discriminate|intros e d' E; injection E as <- <-; exact Hd]|].
    destruct (Rleb _ _); [split; discriminate|].
    destruct (m_step M _ _ _ _ _) as [[s1 w1]|m|] eqn:Es; [|split; discriminate|now apply T1 in Es].
    cbn [bind]. destruct (w_diverging w1); [apply IH; exact Hd|].
    destruct (Rltb _ _).
    - destruct (m_accept M _ _ _ _ _) as [[[[s2 w2] x2] y2]|m|] eqn:Ea; [|split; discriminate|now apply T2 in Ea].
      cbn [bind]. destruct (all_finite y2) as [[]|m|] eqn:Ef; [|split; discriminate|now apply Tf in Ef].
      cbn [bind]. rewrite Hd. cbn [exec_opt bind]. destruct l; [split; [discriminate|intros e d' E; injection E as <- <-; reflexivity]|].
      apply IH. reflexivity.
    - match goal with |- context [let '(_, _) := ?e in _] => destruct e as [s2 w2] end. apply IH. exact Hd. }
  assert (He : forall n d, d_out d = None -> equal_loop M all_finite n d <> Panic /\
    forall e d', equal_loop M all_finite n d = Ok (e, d') -> d_out d' = None).
  { induction n as [|n IH]; intros d Hd; [cbn; split; [discriminate|intros e d' E; injection E as <- <-; exact Hd]|].
    cbn [equal_loop].
    destruct (m_step M _ _ _ _ _) as [[s1 w1]|m|] eqn:Es; [|split; discriminate|now apply T1 in Es].
    cbn [bind].
    destruct (m_accept M _ _ _ _ _) as [[[[s2 w2] x2] y2]|m|] eqn:Ea; [|split; discriminate|now apply T2 in Ea].
    cbn [bind]. destruct (all_finite y2) as [[]|m|] eqn:Ef; [|split; discriminate|now apply Tf in Ef].
    cbn [bind]. rewrite Hd. cbn [exec_opt bind]. apply IH. reflexivity. }
  pose proof eps_pos as Hep.
  assert (Hh : initial_h P x0 x1 h_equal <> Panic /\ forall eq h, initial_h P x0 x1 h_equal = Ok (eq, h) -> (0 < h)%R).
  { unfold initial_h. destruct h_equal as [he|].
    - destruct (Rltb_spec he (10 * EPSILON)); [split; discriminate|]. split; [discriminate|]. intros eq h E. injection E as <- <-.
      apply Rdiv_lt_0_compat; [lra|]. apply lt_0_INR. apply ceil_usize_spec. apply Rdiv_lt_0_compat; lra.
    - destruct (i_embedded _); (split; [discriminate|]); intros eq h E; injection E as <- <-.
      + apply Rmin_glb_lt; lra.
      + apply Rdiv_lt_0_compat; lra. }
  destruct Hh as [Hh1 Hh2].
  apply bind_no_panic; [exact Hh1|]. intros [eq h] Eh. specialize (Hh2 _ _ Eh).
  unfold assert_. rewrite (proj2 (Rltb_true 0 h) Hh2). cbn [bind exec_opt].
  destruct eq.
  - match goal with |- context [equal_loop _ _ ?n ?d] => destruct (He n d eq_refl) as [H1 H2] end.
    apply bind_no_panic; [exact H1|]. intros [st d2] Ed. destruct st; [discriminate|].
    rewrite (H2 _ _ Ed). cbn. discriminate.
  - match goal with |- context [var_loop _ _ _ _ ?n ?l ?d] => destruct (Hv n l d eq_refl) as [H1 H2] end.
    apply bind_no_panic; [exact H1|]. intros [e d2] Ed. destruct e; [discriminate| |]; rewrite (H2 _ _ Ed); cbn; discriminate.
Qed.

(** C53, finding: variable stepping needs one pass more than there are steps: with n_step_max = 1 a
    run over an interval longer than 10 epsilon never succeeds, even if its only step lands on x1 *)
Theorem C53_single_pass_refuted ndim s w y0 x0 x1 oo d :
  i_embedded (method_information (p_method P)) = true -> n_step_max (p_step P) = 1 -> (10 * EPSILON < x1 - x0)%R ->
  solve M all_finite P ndim s w y0 x0 x1 None oo <> Ok (false, d).
Proof.
  intros Hm Hn Hx E. unfold solve in E. destruct (negb _); [discriminate|]. destruct (Rleb _ _); [discriminate|].
  unfold initial_h in E. rewrite Hm in E. cbn [bind] in E. rewrite Hn in E.
  apply bind_ok in E as ([] & _ & E). apply bind_ok in E as ([s1 oo1] & _ & E). apply bind_ok in E as ([st oo2] & _ & E).
  destruct st; [discriminate|]. apply bind_ok in E as ([e d2] & E3 & E).
  assert (He : e <> Success).
  { cbn [var_loop d_x d_w] in E3. rewrite (proj2 (Rleb_false _ _) Hx) in E3. destruct (Rleb _ _); [discriminate|].
    apply bind_ok in E3 as ([s2 w2] & _ & E3). destruct (w_diverging w2); [congruence|]. destruct (Rltb _ _).
    - apply bind_ok in E3 as ([[[s3 w3] x3] y3] & _ & E3). apply bind_ok in E3 as ([] & _ & E3). apply bind_ok in E3 as ([st oo3] & _ & E3).
      destruct st; congruence.
    - match type of E3 with context [let '(_, _) := ?e in _] => destruct e as [s3 w3] end. congruence. }
  destruct e; [discriminate|congruence|]. apply bind_ok in E as (oo4 & _ & E). discriminate.
Qed.
End Claims.

(** * A concrete run: two accepted steps with a rejection between them *)
Section Example53.
(** a method that halves nothing and rejects its second attempt; dy/dx = 1 *)
Definition toy : method_ops nat :=
  mkOps nat Ok
    (fun s w x y h => Ok (S s, set_w_rel_error (if s =? 1 then 2 else 1 / 2)%R w))
    (fun s w x y h => Ok (s, set_w_h_new h w, (x + h)%R, map (fun v => v + h)%R y))
    (fun s w h => (s, set_w_h_new (h / 2)%R w))
    (fun s x_out x y h => Ok (map (fun v => v - (x - x_out))%R y)).

Lemma toy_contract : contract toy.
Proof.
  split.
  - intros s w x y h s' w' E. injection E as <- <-. reflexivity.
  - intros s w x y h s' w' x' y' E. injection E as <- <- <- <-. split; reflexivity.
  - intros s w h s' w' E. injection E as <- <-. reflexivity.
Qed.

Definition toy_params (h : R) (n : nat) : params :=
  mkParams DoPri5 (mkTol 0 0 0) (mkNewton 1 false) (mkStep 0 0 0 0 h n 0) (mkStiff false false false 0 0 0 None) 
    (false) (mkRadau false 0 0 0 false) (mkErkP 0 0).


Lemma toy_accept P x1 n l k w x y h0 tr h : (10 * EPSILON < x1 - x)%R -> Rmin (w_h_new w) (x1 - x) = h -> (10 * EPSILON < h)%R ->
  w_diverging w = false -> k <> 1 ->
  var_loop toy (fun _ => Ok tt) P x1 (S n) l (mkD k w None x y h0 tr) =
  let w' := after_accept P h (set_w_h_new h (add_n_accepted (set_w_rel_error (1 / 2)%R (add_n_steps w)))) in
  let d' := mkD (S k) w' None (x + h)%R (map (fun v => v + h)%R y) h (tr ++ [Accepted h (x + h)%R (map (fun v => v + h)%R y)]) in
  if l then Ok (Success, d') else var_loop toy (fun _ => Ok tt) P x1 n (Rleb x1 (x + h + w_h_new w')) d'.
Proof.
  intros H1 H2 H3 H4 H5. cbn [var_loop d_x d_w]. rewrite (proj2 (Rleb_false _ _) H1), H2, (proj2 (Rleb_false _ _) H3).
  cbn [toy m_step bind d_s]. rewrite (proj2 (Nat.eqb_neq k 1) H5).
  cbn [w_diverging set_w_rel_error add_n_steps on_stats set_w_stats]. rewrite H4.
  change (w_rel_error (set_w_rel_error (1 / 2) (add_n_steps w))) with (1 / 2)%R.
  rewrite (proj2 (Rltb_true (1 / 2) 1)) by lra. reflexivity.
Qed.
Lemma toy_reject P x1 n l w x y h0 tr h : (10 * EPSILON < x1 - x)%R -> Rmin (w_h_new w) (x1 - x) = h -> (10 * EPSILON < h)%R ->
  w_diverging w = false -> 0 < n_accepted (w_stats w) ->
  var_loop toy (fun _ => Ok tt) P x1 (S n) l (mkD 1 w None x y h0 tr) =
  var_loop toy (fun _ => Ok tt) P x1 n false
    (mkD 2 (set_w_h_new (h / 2)%R (set_w_follows_reject true (add_n_rejected (set_w_rel_error 2%R (add_n_steps w))))) None x y h (tr ++ [Rejected])).
Proof.
  intros H1 H2 H3 H4 H5. cbn [var_loop d_x d_w]. rewrite (proj2 (Rleb_false _ _) H1), H2, (proj2 (Rleb_false _ _) H3).
  cbn [toy m_step bind d_s Nat.eqb].
  cbn [w_diverging set_w_rel_error add_n_steps on_stats set_w_stats]. rewrite H4.
  change (w_rel_error (set_w_rel_error 2 (add_n_steps w))) with 2%R. rewrite (proj2 (Rltb_false 2 1)) by lra.
  change (n_accepted (w_stats (set_w_rel_error 2 (add_n_steps w)))) with (n_accepted (w_stats w)).
  rewrite (proj2 (Nat.ltb_lt _ _) H5).
  change (n_accepted (w_stats (set_w_follows_reject true (add_n_rejected (set_w_rel_error 2 (add_n_steps w)))))) with (n_accepted (w_stats w)).
  replace (n_accepted (w_stats w) =? 0) with false by (symmetry; apply Nat.eqb_neq; lia). reflexivity.
Qed.

Example C53_ex : exists d, solve toy (fun _ => Ok tt) (toy_params (1/2) 10) 1 0 workspace_new [5%R] 0 1 None None = Ok (false, d) /\
  d_x d = 1%R /\ d_y d = [6%R] /\ map is_accepted (d_tr d) = [true; false; true; true] /\ n_rejected (w_stats (d_w d)) = 1.
Proof.
  pose proof eps_pos. pose proof eps_small.
  eexists. unfold solve. cbn [length Nat.eqb negb]. rewrite (proj2 (Rleb_false _ _)) by lra.
  unfold initial_h. change (i_embedded (method_information (p_method (toy_params (1/2) 10)))) with true. cbn [bind].
  change (h_ini (p_step (toy_params (1/2) 10))) with (1/2)%R. rewrite (Rmin_left (1/2) (1-0)) by lra.
  unfold assert_. rewrite (proj2 (Rltb_true 0 (1/2))) by lra. cbn [bind exec_opt].
  change (n_step_max (p_step (toy_params (1/2) 10))) with 10.
  rewrite (toy_accept _ 1 9 false 0 _ 0 _ _ _ (1/2)); [|lra|apply Rmin_left; cbn; lra|lra|reflexivity|lia]. cbv zeta.
  rewrite (toy_reject _ 1 8 _ _ _ _ _ _ (1/2)); [|lra|unfold after_accept; cbn; apply Rmin_left; lra|lra|reflexivity|cbn; lia].
  rewrite (toy_accept _ 1 7 false 2 _ _ _ _ _ (1/4)); [|lra|cbn; rewrite Rmin_left; lra|lra|reflexivity|lia]. cbv zeta.
  rewrite (proj2 (Rleb_true _ _)) by (unfold after_accept; cbn; rewrite Rmin_left; lra).
  rewrite (toy_accept _ 1 6 true 3 _ _ _ _ _ (1/4)); [|lra|unfold after_accept; cbn; unfold Rmin; repeat destruct (Rle_dec _ _); lra|lra|reflexivity|lia]. cbv zeta.
  cbn [bind]. unfold last_opt. cbn [d_out bind].
  split; [reflexivity|]. cbn [d_x d_y d_tr app map is_accepted]. splits; [lra|f_equal; lra|reflexivity|reflexivity].
Qed.
End Example53.

Print Assumptions C53_reaches_end.
Print Assumptions C53_equal_steps.
Print Assumptions C54_no_divergence.
