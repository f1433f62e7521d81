(** C56: the step-size controller of the explicit Runge-Kutta methods. *)
From Coq Require Import Lra.
From Verif Require Import Erk_Model Ode_Base_Thm Ode_Drv_Thm Erk_Thm.
Local Open Scope nat_scope.

Section Ctl.
Variable ndim : nat.
Variable f : R -> vec -> res vec.
Variable powf : R -> R -> R.

(** the limits are those of the parameters given to `new`; the exponent is positive for validated parameters *)
Theorem C56_new_limits p s : erk_new p ndim = Ok s ->
  e_params s = p /\ e_dmin s = (1 / m_min (p_step p))%R /\ e_dmax s = (1 / m_max (p_step p))%R /\
  (erk_ok (p_erk p) -> (0 < e_lund s)%R).
Proof.
  unfold erk_new. intros E. destruct (erk_tableau (p_method p)) as [[[A b] c]|] eqn:Et; [|discriminate].
  apply bind_ok in E as (ee & Ee & E). injection E as <-. cbn. splits; try reflexivity.
  intros ((B1 & B2) & M1 & M2).
  assert (Hq : (1 / 9 <= 1 / INR (i_order_of_estimator (method_information (p_method p)) + 1))%R).
  { assert (L : 1 <= i_order_of_estimator (method_information (p_method p)) + 1 <= 9) by (destruct (p_method p); cbn; lia).
    destruct L as [L1 L2]. apply le_INR in L1, L2. unfold Rdiv. rewrite !Rmult_1_l. apply Rinv_le_contravar; [cbn in L1; lra|].
    replace 9%R with (INR 9) by (cbn; lra). exact L2. }
  assert (lund_beta (p_erk p) * lund_m (p_erk p) <= 0.1)%R by nra. lra.
Qed.

Lemma accept_h_new s w x y h s' w' x' y' : erk_accept ndim f powf s w x y h = Ok (s', w', x', y') -> i_embedded (e_info s) = true ->
  w_h_new w' = erk_new_h powf s w h.
Proof.
  intros E He. unfold erk_accept in E. apply bind_ok in E as ([s1 w1] & E1 & E).
  assert (S1 : e_info s1 = e_info s /\ erk_new_h powf s1 w1 h = erk_new_h powf s w h).
  { destruct (e_dense s); [apply bind_ok in E1 as ([o' n'] & _ & E1)|]; injection E1 as <- <-; split; reflexivity. }
  destruct S1 as (I1 & N1). cbv zeta in E. apply bind_ok in E as (y2 & _ & E). apply bind_ok in E as (s2 & E2 & E).
  assert (S2 : e_info s2 = e_info s /\ erk_new_h powf s2 w1 h = erk_new_h powf s w h).
  { rewrite <- N1, <- I1. destruct (i_fsal (e_info s1)); [|injection E2 as <-; split; reflexivity].
    repeat (apply bind_ok in E2 as (? & ? & E2)). injection E2 as <-. split; reflexivity. }
  destruct S2 as (I2 & N2). rewrite I2, He in E. cbn [negb] in E. apply bind_ok in E as ([s3 w3] & E3 & E). injection E as <- <- <- <-.
  rewrite <- N2.
  assert (DS : forall wa xa ps wb, detect_stiffness wa xa ps = Ok wb -> w_h_new wb = w_h_new wa).
  { unfold detect_stiffness. intros wa xa ps wb E. cbn -[Nat.leb Nat.eqb] in E.
    repeat match type of E with context [if ?c then _ else _] => destruct c end; try discriminate; injection E as <-; reflexivity. }
  unfold erk_stiffness in E3. destruct (ps_enabled (p_stiff (e_params s2))); [|injection E3 as <- <-; reflexivity].
  destruct (p_method (e_params s2)); try (injection E3 as <- <-; reflexivity).
  - repeat (apply bind_ok in E3 as (? & ? & E3)). injection E3 as <- <-.
    match goal with H : detect_stiffness _ _ _ = Ok _ |- _ => apply DS in H as -> end. destruct (Rltb EPSILON _); reflexivity.
  - repeat (apply bind_ok in E3 as (? & ? & E3)). injection E3 as <- <-.
    match goal with H : detect_stiffness _ _ _ = Ok _ |- _ => apply DS in H as -> end. destruct (Rltb EPSILON _); reflexivity.
Qed.

Lemma div_between h a b d : (0 < h)%R -> (0 < a)%R -> (a < b)%R -> (1 / b <= d <= 1 / a)%R -> (a * h <= h / d <= b * h)%R.
Proof.
  intros Hh Ha Hab [D1 D2]. assert (Hb : (0 < b)%R) by lra.
  assert (P : (0 < 1 / b)%R) by (apply Rdiv_lt_0_compat; lra). assert (Hd : (0 < d)%R) by lra.
  assert (X1 : (d * a <= 1)%R). { apply Rmult_le_reg_r with (/ a)%R; [now apply Rinv_0_lt_compat|]. rewrite Rmult_assoc, Rinv_r by lra. lra. }
  assert (X2 : (1 <= d * b)%R). { apply Rmult_le_reg_r with (/ b)%R; [now apply Rinv_0_lt_compat|]. rewrite Rmult_assoc, Rinv_r by lra. lra. }
  split; apply Rmult_le_reg_r with d; try exact Hd; unfold Rdiv; rewrite (Rmult_assoc h), Rinv_l, Rmult_1_r by lra; nra.
Qed.

(** `accept` of an embedded method suggests a stepsize between m_min h and m_max h, whatever powf is *)
Theorem C56_accept_range : forall p s w x y h s' w' x' y',
  e_dmin s = (1 / m_min (p_step p))%R -> e_dmax s = (1 / m_max (p_step p))%R ->
  step_ok (p_step p) -> (0 < h)%R -> i_embedded (e_info s) = true ->
  erk_accept ndim f powf s w x y h = Ok (s', w', x', y') ->
  (m_min (p_step p) * h <= w_h_new w' <= m_max (p_step p) * h)%R.
Proof.
  intros p s w x y h s' w' x' y' E1 E2 (S1 & S2 & _) Hh He E. rewrite (accept_h_new _ _ _ _ _ _ _ _ _ E He).
  unfold erk_new_h. cbv zeta. apply div_between; [exact Hh|lra|exact S2|].
  rewrite E1, E2. set (z := (_ / m_safety _)%R).
  assert (L : (1 / m_max (p_step p) <= 1 / m_min (p_step p))%R).
  { unfold Rdiv. rewrite !Rmult_1_l. apply Rinv_le_contravar; lra. }
  split; [apply Rmax_l|]. apply Rmax_lub; [exact L|apply Rmin_l].
Qed.

(** `reject` shrinks the step: at least m_min h, at most max(m_min, m_safety) h <= h *)
Theorem C56_reject_range : forall p s w h s' w',
  e_params s = p -> e_dmin s = (1 / m_min (p_step p))%R -> step_ok (p_step p) -> (0 < h)%R ->
  (forall a q, (1 <= a)%R -> (0 < q)%R -> (1 <= powf a q)%R) -> (0 < e_lund s)%R -> (1 <= w_rel_error w)%R ->
  erk_reject powf s w h = (s', w') ->
  (m_min (p_step p) * h <= w_h_new w' <= Rmax (m_min (p_step p)) (m_safety (p_step p)) * h)%R /\ (w_h_new w' <= h)%R.
Proof.
  intros p s w h s' w' Ep E1 (S1 & S2 & S3 & S4 & _) Hh Hp Hl Hr E. injection E as <- <-. cbn [w_h_new set_w_h_new]. rewrite Ep, E1.
  specialize (Hp _ _ Hr Hl). set (z := powf (w_rel_error w) (e_lund s)) in *. set (a := m_min (p_step p)) in *. set (g := m_safety (p_step p)) in *.
  assert (Hz : (1 / g <= z / g)%R) by (apply Rmult_le_compat_r; [left; apply Rinv_0_lt_compat; lra|exact Hp]).
  assert (Hg : (0 < 1 / g)%R) by (apply Rdiv_lt_0_compat; lra). assert (Ha : (0 < 1 / a)%R) by (apply Rdiv_lt_0_compat; lra).
  set (d := Rmin (1 / a) (z / g)).
  assert (D1 : (d <= 1 / a)%R) by apply Rmin_l.
  assert (D2 : (1 / Rmax a g <= d)%R).
  { apply Rmin_glb; [|apply Rle_trans with (1 / g)%R; [|exact Hz]];
      unfold Rdiv; rewrite !Rmult_1_l; apply Rinv_le_contravar; try lra; [apply Rmax_l|apply Rmax_r]. }
  assert (MX : (Rmax a g <= 1)%R) by (apply Rmax_lub; lra).
  assert (Pd : (0 < d)%R) by (apply Rmin_glb_lt; lra).
  assert (X1 : (d * a <= 1)%R). { apply Rmult_le_reg_r with (/ a)%R; [apply Rinv_0_lt_compat; lra|]. rewrite Rmult_assoc, Rinv_r by lra. lra. }
  assert (PM : (0 < Rmax a g)%R) by (apply Rlt_le_trans with a; [lra|apply Rmax_l]).
  assert (X2 : (1 <= d * Rmax a g)%R). { apply Rmult_le_reg_r with (/ Rmax a g)%R; [now apply Rinv_0_lt_compat|]. rewrite Rmult_assoc, Rinv_r by lra. lra. }
  assert (B : (a * h <= h / d <= Rmax a g * h)%R).
  { split; apply Rmult_le_reg_r with d; try exact Pd; unfold Rdiv; rewrite (Rmult_assoc h), Rinv_l, Rmult_1_r by lra; nra. }
  split; [exact B|]. nra.
Qed.

(** update_params does not refresh the limits: a validated parameter set with m_max = 2 can be followed
    by a suggestion of 10 h (the m_max given to `new`) *)
Theorem C56_update_params_refuted : forall p p' s s1 w h,
  erk_new p ndim = Ok s -> step_ok (p_step p) -> m_max (p_step p) = 10%R -> m_max (p_step p') = 2%R ->
  s1 = erk_update_params p' s -> (0 < h)%R -> powf (w_rel_error w) (e_lund s) = 0%R -> lund_beta (p_erk p') = 0%R ->
  (m_max (p_step p') * h < erk_new_h powf s1 w h)%R.
Proof.
  intros p p' s s1 w h En (S1 & S2 & _) M1 M2 -> Hh Hz Hb. destruct (C56_new_limits _ _ En) as (E1 & E2 & E3 & _).
  unfold erk_new_h, erk_update_params. cbn [e_params e_lund e_dmin e_dmax set_e_params]. rewrite Hz, Hb.
  rewrite (proj2 (Rltb_false 0 0)) by lra. cbn [andb]. rewrite E2, E3, M1, M2. unfold Rdiv at 4. rewrite Rmult_0_l.
  rewrite Rmin_right by (apply Rlt_le, Rdiv_lt_0_compat; lra). rewrite Rmax_left by lra. lra.
Qed.

(** after a rejection the next accepted step cannot suggest a larger stepsize than its own *)
Lemma erk_keeps_flag_reject s w h s' w' : erk_reject powf s w h = (s', w') -> w_follows_reject w' = w_follows_reject w.
Proof. intros E. injection E as <- <-. reflexivity. Qed.
End Ctl.

(** methods whose `step`, `accept` and `reject` leave the driver's flag "follows a rejection" alone *)
Record keeps_flag {S} (M : method_ops S) : Prop := mkKF {
  kf_step : forall s w x y h s' w', m_step M s w x y h = Ok (s', w') -> w_follows_reject w' = w_follows_reject w;
  kf_accept : forall s w x y h s' w' x' y', m_accept M s w x y h = Ok (s', w', x', y') -> w_follows_reject w' = w_follows_reject w;
  kf_reject : forall s w h s' w', m_reject M s w h = (s', w') -> w_follows_reject w' = w_follows_reject w }.
Arguments kf_step {S M}. Arguments kf_accept {S M}. Arguments kf_reject {S M}.

(** in the list of attempts, an accepted step right after a failed attempt is not followed by a larger one *)
Definition no_growth_after_failure (tr : list attempt) : Prop :=
  forall pre a h1 x1 y1 h2 x2 y2 post, tr = pre ++ [a; Accepted h1 x1 y1; Accepted h2 x2 y2] ++ post ->
  is_accepted a = false -> (h2 <= h1)%R.

Section Growth.
Variable S : Type.
Variable M : method_ops S.
Variable all_finite : vec -> res unit.
Variable P : params.
Hypothesis KF : keeps_flag M.

Lemma snoc3 {A} (l : list A) z : 3 <= length (l ++ [z]) -> exists pre a b, l ++ [z] = pre ++ [a; b; z].
Proof.
  intros H. rewrite app_length in H. cbn in H. destruct (exists_last (l := l)) as (l1 & b & ->); [destruct l; cbn in H; [lia|discriminate]|].
  rewrite app_length in H. cbn in H. destruct (exists_last (l := l1)) as (l2 & a & ->); [destruct l1; cbn in H; [lia|discriminate]|].
  exists l2, a, b. now rewrite <- !app_assoc.
Qed.

Lemma snoc_split {A} (l pre post : list A) z a b c : l ++ [z] = pre ++ [a; b; c] ++ post ->
  (post = [] /\ l = pre ++ [a; b] /\ z = c) \/ exists post', l = pre ++ [a; b; c] ++ post'.
Proof.
  intros E. destruct (exists_last (l := [a; b; c] ++ post)) as (l' & z' & E'); [discriminate|].
  rewrite E', app_assoc in E. apply app_inj_tail in E as [E ->].
  destruct post as [|q post] using rev_ind.
  - left. change ([a; b; c] ++ []) with ([a; b] ++ [c]) in E'. apply app_inj_tail in E' as [<- ->]. auto.
  - right. rewrite app_assoc in E'. apply app_inj_tail in E' as [<- ->]. exists post. now rewrite E.
Qed.

Definition growth_inv (d : dstate S) : Prop :=
  no_growth_after_failure (d_tr d) /\
  (forall pre a, d_tr d = pre ++ [a] -> is_accepted a = false -> w_follows_reject (d_w d) = true) /\
  (forall pre a h x y, d_tr d = pre ++ [a; Accepted h x y] -> is_accepted a = false -> (w_h_new (d_w d) <= h)%R).

Lemma growth_fail d s w oo x y h a : growth_inv d -> is_accepted a = false -> w_follows_reject w = true ->
  growth_inv (mkD s w oo x y h (d_tr d ++ [a])).
Proof.
  intros (H1 & H2 & H3) Ha Hf. unfold growth_inv. cbn [d_tr d_w]. splits.
  - intros pre b h1 x1 y1 h2 x2 y2 post E Hb. apply snoc_split in E as [(-> & _ & ->)|(post' & E)]; [discriminate Ha|]. eapply H1; eauto.
  - auto.
  - intros pre b h0 x0 y0 E _. change [b; Accepted h0 x0 y0] with ([b] ++ [Accepted h0 x0 y0]) in E. rewrite app_assoc in E.
    apply app_inj_tail in E as [_ ->]. discriminate Ha.
Qed.

Lemma growth_acc d s w oo x y h x2 y2 : growth_inv d ->
  (forall pre a h0 x0 y0, d_tr d = pre ++ [a; Accepted h0 x0 y0] -> is_accepted a = false -> (h <= h0)%R) ->
  ((exists pre a, d_tr d = pre ++ [a] /\ is_accepted a = false) -> (w_h_new w <= h)%R) ->
  growth_inv (mkD s w oo x y h (d_tr d ++ [Accepted h x2 y2])).
Proof.
  intros (H1 & H2 & H3) Hh Hn. unfold growth_inv. cbn [d_tr d_w]. splits.
  - intros pre b h1 x1 y1 h3 x3 y3 post E Hb. apply snoc_split in E as [(-> & E & E2)|(post' & E)]; [|eapply H1; eauto].
    injection E2 as <- _ _. eapply Hh; eauto.
  - intros pre a E Ha. apply app_inj_tail in E as [_ <-]. discriminate Ha.
  - intros pre b h0 x0 y0 E Hb. change [b; Accepted h0 x0 y0] with ([b] ++ [Accepted h0 x0 y0]) in E. rewrite app_assoc in E.
    apply app_inj_tail in E as [E E2]. injection E2 as <- _ _. apply Hn. eauto.
Qed.

(** a whole run with variable steps *)
Theorem C56_no_growth_after_rejection : forall ndim s w y0 x0 x1 oo stop d,
  i_embedded (method_information (p_method P)) = true ->
  solve M all_finite P ndim s w y0 x0 x1 None oo = Ok (stop, d) -> no_growth_after_failure (d_tr d).
Proof.
  intros ndim s w y0 x0 x1 oo stop d He E. unfold solve in E.
  destruct (negb (length y0 =? ndim)); [discriminate|]. destruct (Rleb x1 x0); [discriminate|].
  unfold initial_h in E. rewrite He in E. cbn [bind] in E. apply bind_ok in E as ([] & _ & E). cbv zeta in E.
  apply bind_ok in E as ([s1 oo1] & _ & E). apply bind_ok in E as ([st oo2] & _ & E).
  assert (NG0 : no_growth_after_failure []).
  { intros pre a h1 u1 v1 h2 u2 v2 post Q. destruct pre; discriminate Q. }
  destruct st; [injection E as <- <-; exact NG0|].
  apply bind_ok in E as ([e d'] & El & E).
  assert (G : growth_inv d').
  { refine (_ (var_loop_rule S M all_finite P x1 (fun _ => growth_inv) growth_inv growth_inv _ _ _ _ _ _ _ _ _ El)).
    - destruct e; [intros H; exact H|intros ((l & H) & _); exact H|intros (l & H); exact H].
    - intros l0 d0 s0 w0 h HI _ _ _ _ _. now apply growth_fail.
    - intros l0 d0 s0 w0 s' w' h HI _ _ _ Es _ _ Er. apply growth_fail; auto.
      unfold after_reject in Er. cbv zeta in Er.
      match type of Er with (if ?c then _ else _) = _ => destruct c end.
      + injection Er as <- <-. reflexivity.
      + now rewrite (kf_reject KF _ _ _ _ _ Er).
    - intros l0 d0 s0 w0 s' w' x y h st0 oo0 HI _ Hh _ Es _ _ Ea _ _.
      assert (HA : growth_inv (mkD s' (after_accept P h w') oo0 x y h (d_tr d0 ++ [Accepted h x y]))).
      { apply growth_acc; [exact HI| |].
        - intros pre a h0 u0 v0 Ed Ha. subst h. apply Rle_trans with (w_h_new (d_w d0)); [apply Rmin_l|]. now apply (proj2 (proj2 HI) _ _ _ _ _ Ed).
        - intros (pre & a & Ed & Ha). pose proof (proj1 (proj2 HI) _ _ Ed Ha) as Hf.
          assert (Hf' : w_follows_reject w' = true).
          { rewrite (kf_accept KF _ _ _ _ _ _ _ _ _ Ea). cbn. rewrite (kf_step KF _ _ _ _ _ _ _ Es). exact Hf. }
          unfold after_accept. rewrite Hf'. cbn. apply Rmin_r. }
      cbv zeta. destruct st0; [exact HA|]. split; [exact HA|]. intros _. exact HA.
    - unfold growth_inv. cbn [d_tr d_w]. splits; [exact NG0| |]; intros; match goal with H : [] = ?p ++ _ |- _ => destruct p; discriminate H end. }
  destruct e; [injection E as <- <-; exact (proj1 G)| |]; apply bind_ok in E as (o & _ & E); [injection E as <- <-; exact (proj1 G)|discriminate].
Qed.
End Growth.

Theorem C56_erk_keeps_flag ndim f powf : keeps_flag (erk_ops ndim f powf).
Proof.
  split; cbn [m_step m_accept m_reject erk_ops erk_ops_gen].
  - intros s w x y h s' w' E. unfold erk_step_gen in E. cbv zeta in E. apply bind_ok in E as (k & _ & E). apply bind_ok in E as ([[k' v'] w2] & El & E).
    assert (F2 : w_follows_reject w2 = w_follows_reject w).
    { destruct (Nat.le_gt_cases 1 (e_nstage s)) as [L|L].
      - refine (for_range_partial (fun _ st => w_follows_reject (snd st) = w_follows_reject w) _ _ _ _ _ L El _ _).
        + destruct (needs_k0 s w); reflexivity.
        + intros i [[k1 v1] w1] st' _ H Es. unfold erk_stage in Es. repeat (apply bind_ok in Es as (? & ? & Es)). injection Es as <-. exact H.
      - unfold for_range in El. replace (e_nstage s - 1) with 0 in El by lia. cbn in El. injection El as _ _ <-. destruct (needs_k0 s w); reflexivity. }
    unfold erk_finish in E. destruct (negb _).
    + apply bind_ok in E as (? & _ & E). injection E as <- <-. exact F2.
    + apply bind_ok in E as (? & _ & E). apply bind_ok in E as ([? ?] & _ & E). injection E as <- <-. exact F2.
  - intros s w x y h s' w' x' y' E. unfold erk_accept in E. apply bind_ok in E as ([s1 w1] & E1 & E).
    assert (R1 : w_follows_reject w1 = w_follows_reject w).
    { destruct (e_dense s); [apply bind_ok in E1 as ([o' n'] & _ & E1)|]; injection E1 as <- <-; reflexivity. }
    cbv zeta in E. apply bind_ok in E as (y2 & _ & E). apply bind_ok in E as (s2 & E2 & E).
    destruct (negb (i_embedded (e_info s2))); [injection E as <- <- <- <-; exact R1|].
    apply bind_ok in E as ([s3 w3] & E3 & E). injection E as <- <- <- <-.
    assert (DS : forall wa xa ps wb, detect_stiffness wa xa ps = Ok wb -> w_follows_reject wb = w_follows_reject wa).
    { unfold detect_stiffness. intros wa xa ps wb E. cbn -[Nat.leb Nat.eqb] in E.
      repeat match type of E with context [if ?c then _ else _] => destruct c end; try discriminate; injection E as <-; reflexivity. }
    unfold erk_stiffness in E3. destruct (ps_enabled (p_stiff (e_params s2))); [|injection E3 as <- <-; exact R1].
    destruct (p_method (e_params s2)); try (injection E3 as <- <-; exact R1).
    + repeat (apply bind_ok in E3 as (? & ? & E3)). injection E3 as <- <-.
      match goal with H : detect_stiffness _ _ _ = Ok _ |- _ => apply DS in H as -> end. destruct (Rltb EPSILON _); exact R1.
    + repeat (apply bind_ok in E3 as (? & ? & E3)). injection E3 as <- <-.
      match goal with H : detect_stiffness _ _ _ = Ok _ |- _ => apply DS in H as -> end. destruct (Rltb EPSILON _); exact R1.
  - intros s w h s' w' E. injection E as <- <-. reflexivity.
Qed.

(** non-vacuity: a fresh Merson4 solver accepts a step and suggests a stepsize in the range *)
Example C56_ex : let f := fun (_ : R) (z : vec) => Ok (map Ropp z) in
  forall p, p_method p = Merson4 -> step_ok (p_step p) -> exists s s' w' x' y', erk_new p 1 = Ok s /\ i_embedded (e_info s) = true /\
    erk_accept 1 f (fun a _ => a) s workspace_new 0 [1%R] 0.5%R = Ok (s', w', x', y') /\
    (m_min (p_step p) * 0.5 <= w_h_new w' <= m_max (p_step p) * 0.5)%R.
Proof.
  intros f p Hp Hs. destruct (erk_new p 1) as [s|e|] eqn:E; [|unfold erk_new in E; rewrite Hp in E; discriminate E..].
  pose proof E as E0. destruct (C56_new_limits 1 _ _ E) as (P1 & P2 & P3 & _).
  assert (X : exists q, erk_accept 1 f (fun a _ => a) s workspace_new 0 [1%R] 0.5%R = Ok q).
  { unfold erk_accept. unfold erk_new in E. rewrite Hp in E. cbn [erk_tableau] in E. apply bind_ok in E as (ee & Ee & E). injection E as <-.
    cbn [e_dense bind e_w vcopy length repeat zeros Nat.eqb e_info i_fsal method_information negb i_embedded]. unfold erk_stiffness.
    cbn [e_params]. rewrite Hp. destruct (ps_enabled (p_stiff p)); eexists; reflexivity. }
  destruct X as ([[[s' w'] x'] y'] & X). exists s, s', w', x', y'. split; [reflexivity|split; [|split; [exact X|]]].
  - unfold erk_new in E. rewrite Hp in E. cbn [erk_tableau] in E. apply bind_ok in E as (ee & Ee & E). injection E as <-. reflexivity.
  - refine (C56_accept_range 1 f _ p s _ _ _ _ _ _ _ _ P2 P3 Hs _ _ X); [lra|].
    unfold erk_new in E. rewrite Hp in E. cbn [erk_tableau] in E. apply bind_ok in E as (ee & Ee & E). injection E as <-. reflexivity.
Qed.

(** non-vacuity of the rejection range: default parameters of DoPri5 *)
Example C56_reject_ex : exists p s, params_new (fun _ _ => 1%R) DoPri5 = Ok p /\ erk_new p 1 = Ok s /\ step_ok (p_step p) /\ (0 < e_lund s)%R /\
  let w := set_w_rel_error 2 workspace_new in
  (w_h_new (snd (erk_reject (fun a _ => a) s w 1)) <= 1)%R.
Proof.
  destruct (C58_defaults (fun _ _ => 1%R) ltac:(intros; lra) DoPri5) as (p & Ep & Ev & Em). exists p.
  apply C58_validate_iff in Ev as (_ & Vs & _ & Ve). destruct (erk_new p 1) as [s|e|] eqn:E; [|unfold erk_new in E; rewrite Em in E; discriminate E..].
  destruct (C56_new_limits 1 _ _ E) as (P1 & P2 & P3 & P4). exists s. splits; auto. cbv zeta.
  refine (proj2 (C56_reject_range (fun a _ => a) p s (set_w_rel_error 2 workspace_new) 1 _ _ P1 P2 Vs _ _ (P4 Ve) _ _)); [lra|auto|cbn; lra|]. apply surjective_pairing.
Qed.

Print Assumptions C56_accept_range.
Print Assumptions C56_no_growth_after_rejection.
