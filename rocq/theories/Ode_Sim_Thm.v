(** Two solvers whose steps cannot be told apart give the same run (used for C50 and C59). *)
From Verif Require Import Ode_Drv_Model Ode_Base_Thm Ode_Drv_Thm.
Local Open Scope nat_scope.

(** the same outcome: related values, the same error, or a panic on both sides *)
Inductive rrel {A B} (P : A -> B -> Prop) : res A -> res B -> Prop :=
| rrel_ok a b : P a b -> rrel P (Ok a) (Ok b)
| rrel_err e : rrel P (Err e) (Err e)
| rrel_panic : rrel P Panic Panic.

Lemma rrel_bind {A B A' B'} (P : A -> B -> Prop) (Q : A' -> B' -> Prop) x y (k : A -> res A') (l : B -> res B') :
  rrel P x y -> (forall a b, P a b -> rrel Q (k a) (l b)) -> rrel Q (bind x k) (bind y l).
Proof. intros [a b H|e|] HK; cbn; [now apply HK|constructor|constructor]. Qed.
Lemma rrel_same {A} (x : res A) : rrel eq x x.
Proof. destruct x; now constructor. Qed.
Lemma rrel_bind_same {A A' B'} (Q : A' -> B' -> Prop) (x : res A) (k : A -> res A') (l : A -> res B') :
  (forall a, x = Ok a -> rrel Q (k a) (l a)) -> rrel Q (bind x k) (bind x l).
Proof. intros HK. destruct x; cbn; [now apply HK|constructor|constructor]. Qed.
Lemma rrel_imp {A B} (P Q : A -> B -> Prop) x y : rrel P x y -> (forall a b, P a b -> Q a b) -> rrel Q x y.
Proof. intros [a b H|e|] HK; constructor; auto. Qed.
Lemma rrel_eq {A} (x y : res A) : rrel eq x y -> x = y.
Proof. intros H. inversion H; congruence. Qed.

(** everything the caller sees of the driver's state *)
Definition same_view {S1 S2} (d1 : dstate S1) (d2 : dstate S2) : Prop :=
  d_w d1 = d_w d2 /\ d_out d1 = d_out d2 /\ d_x d1 = d_x d2 /\ d_y d1 = d_y d2 /\ d_h d1 = d_h d2 /\ d_tr d1 = d_tr d2.

(** the same run, up to a relation of the final solver states *)
Definition same_run {S1 S2} (J : S1 -> S2 -> Prop) (r1 : res (bool * dstate S1)) (r2 : res (bool * dstate S2)) : Prop :=
  rrel (fun p q => fst p = fst q /\ same_view (snd p) (snd q) /\ J (d_s (snd p)) (d_s (snd q))) r1 r2.

Definition dense_requested (oo : option output) : bool :=
  match oo with Some o => with_dense_output o | None => false end.

(** a workspace as it is at the beginning of a run *)
Definition at_start (w : workspace) : Prop := n_accepted (w_stats w) = 0 /\ w_follows_reject w = false.

Section Sim.
Variables S1 S2 : Type.
Variable M1 : method_ops S1.
Variable M2 : method_ops S2.
Variable all_finite : vec -> res unit.
Variable P : params.
(** [I0]: before a step at (x, y); [I1]: after a step of size h from (x, y), before accept or reject *)
Variable I0 : S1 -> S2 -> workspace -> R -> vec -> Prop.
Variable I1 : S1 -> S2 -> workspace -> R -> vec -> R -> Prop.

Record simulation : Prop := mkSim {
  sim_step : forall s1 s2 w x y h, I0 s1 s2 w x y ->
    rrel (fun p q => snd p = snd q /\ w_follows_reject (snd p) = w_follows_reject w /\ I1 (fst p) (fst q) (snd p) x y h)
      (m_step M1 s1 (add_n_steps w) x y h) (m_step M2 s2 (add_n_steps w) x y h);
  sim_accept : forall s1 s2 w x y h, I1 s1 s2 w x y h ->
    rrel (fun p q => let '(s1', w1, x1, y1) := p in let '(s2', w2, x2, y2) := q in
            w1 = w2 /\ x1 = x2 /\ y1 = y2 /\ w_follows_reject w1 = w_follows_reject w /\
            (forall w', n_accepted (w_stats w') = n_accepted (w_stats w1) -> w_follows_reject w' = false -> I0 s1' s2' w' x1 y1))
      (m_accept M1 s1 (add_n_accepted w) x y h) (m_accept M2 s2 (add_n_accepted w) x y h);
  sim_again : forall s1 s2 w x y h w', I1 s1 s2 w x y h -> w_follows_reject w' = true -> n_accepted (w_stats w') = n_accepted (w_stats w) -> I0 s1 s2 w' x y;
  sim_reject : forall s1 s2 w x y h w', I1 s1 s2 w x y h -> w_follows_reject w' = true -> n_accepted (w_stats w') = n_accepted (w_stats w) ->
    snd (m_reject M1 s1 w' h) = snd (m_reject M2 s2 w' h) /\
    I0 (fst (m_reject M1 s1 w' h)) (fst (m_reject M2 s2 w' h)) (snd (m_reject M1 s1 w' h)) x y;
  sim_dense : forall s1 s2 w x y, I0 s1 s2 w x y -> n_accepted (w_stats w) <> 0 -> forall xo xx yy hh, m_dense M1 s1 xo xx yy hh = m_dense M2 s2 xo xx yy hh }.

Hypothesis SIM : simulation.

Lemma dense_loop_same fuel s1 s2 st h x y o :
  (forall xo xx yy hh, m_dense M1 s1 xo xx yy hh = m_dense M2 s2 xo xx yy hh) ->
  dense_loop M1 fuel s1 st h x y o = dense_loop M2 fuel s2 st h x y o.
Proof.
  intros H. revert o. induction fuel as [|fuel IH]; intros o; [reflexivity|]. cbn [dense_loop].
  destruct (vget (o_dense_x o) (o_dense_index o)) as [xo|e|]; cbn [bind]; try reflexivity.
  destruct (Rltb x xo); [reflexivity|]. rewrite H.
  destruct (m_dense M2 s2 xo x y h) as [yo|e|]; cbn [bind]; try reflexivity.
  destruct (run_cb (o_dense_cb o) st h xo yo (EvDenseCb h xo yo) o) as [[stop o']|e|]; cbn [bind]; try reflexivity.
  destruct stop; [reflexivity|].
  destruct (record_dense yo (write_dense_file h xo yo o')) as [o2|e|]; cbn [bind]; try reflexivity. apply IH.
Qed.

Lemma exec_same s1 s2 w h x y oo :
  (n_accepted (w_stats w) <> 0 -> forall xo xx yy hh, m_dense M1 s1 xo xx yy hh = m_dense M2 s2 xo xx yy hh) ->
  exec_opt M1 s1 w h x y oo = exec_opt M2 s2 w h x y oo.
Proof.
  intros H. destruct oo as [o|]; [|reflexivity]. unfold exec_opt, o_execute, dense_part.
  destruct (assert_ (o_initialized o)) as [[]|e|]; cbn [bind]; try reflexivity.
  destruct (run_cb (o_step_cb o) (w_stats w) h x y (EvStepCb h x y) o) as [[stop o']|e|]; cbn [bind]; try reflexivity.
  destruct stop; [reflexivity|].
  destruct (record_step h x y (write_step_file h x y o')) as [o2|e|]; cbn [bind]; try reflexivity.
  destruct (with_dense_output o2); [|reflexivity].
  destruct (Nat.eqb_spec (n_accepted (w_stats w)) 0) as [N0|N0]; [reflexivity|]. specialize (H N0).
  destruct (usub (length (o_dense_x o2)) 1) as [n|e|]; cbn [bind]; try reflexivity.
  now rewrite (dense_loop_same _ s1 s2 _ _ _ _ _ H).
Qed.

Definition rel (d1 : dstate S1) (d2 : dstate S2) : Prop := same_view d1 d2 /\ I0 (d_s d1) (d_s d2) (d_w d1) (d_x d1) (d_y d1).
(** the final solver states *)
Definition J (s1 : S1) (s2 : S2) : Prop := exists w x y, I0 s1 s2 w x y.

Lemma equal_same n : forall d1 d2, rel d1 d2 -> w_follows_reject (d_w d1) = false ->
  same_run J (equal_loop M1 all_finite n d1) (equal_loop M2 all_finite n d2).
Proof.
  induction n as [|n IH]; intros [s1 w oo x y h tr] [s2 w2 oo2 x2 y2 h2 tr2] [(Ew & Eo & Ex & Ey & Eh & Et) HI] Hf; cbn [d_s d_w d_out d_x d_y d_h d_tr] in *; subst w2 oo2 x2 y2 h2 tr2.
  { constructor. cbn; unfold same_view; cbn; splits; auto. now exists w, x, y. }
  cbn [equal_loop d_s d_w d_out d_x d_y d_h d_tr].
  eapply rrel_bind; [apply (sim_step SIM); exact HI|]. intros [a w1] [b w1'] (E1 & E2 & E3). cbn [fst snd] in *. subst w1'.
  eapply rrel_bind; [apply (sim_accept SIM); exact E3|]. intros [[[a' wa] xa] ya] [[[b' wb] xb] yb] (F1 & F2 & F3 & F4 & F5). subst wb xb yb.
  apply rrel_bind_same. intros [] _.
  assert (Hfa : w_follows_reject wa = false) by congruence.
  assert (HI' : I0 a' b' wa xa ya) by (apply F5; auto).
  rewrite (exec_same a' b' wa h xa ya oo (sim_dense SIM _ _ _ _ _ HI')).
  apply rrel_bind_same. intros [stop oo'] _. destruct stop.
  - constructor. cbn; unfold same_view; cbn; splits; auto. now exists wa, xa, ya.
  - apply IH; [split; [unfold same_view; cbn; splits; auto|exact HI']|exact Hfa].
Qed.

Definition same_var (r1 : res (ending * dstate S1)) (r2 : res (ending * dstate S2)) : Prop :=
  rrel (fun p q => fst p = fst q /\ same_view (snd p) (snd q) /\ J (d_s (snd p)) (d_s (snd q))) r1 r2.

Lemma var_same x1 n : forall l d1 d2, rel d1 d2 ->
  same_var (var_loop M1 all_finite P x1 n l d1) (var_loop M2 all_finite P x1 n l d2).
Proof.
  induction n as [|n IH]; intros l [s1 w oo x y h tr] [s2 w2 oo2 x2 y2 h2 tr2] [(Ew & Eo & Ex & Ey & Eh & Et) HI]; cbn [d_s d_w d_out d_x d_y d_h d_tr] in *; subst w2 oo2 x2 y2 h2 tr2.
  { constructor. cbn; unfold same_view; cbn; splits; auto. now exists w, x, y. }
  cbn [var_loop d_s d_w d_out d_x d_y d_h d_tr]. cbv zeta.
  destruct (Rleb (x1 - x) (10 * EPSILON)).
  { constructor. cbn; unfold same_view; cbn; splits; auto. now exists w, x, y. }
  set (hh := Rmin (w_h_new w) (x1 - x)).
  destruct (Rleb hh (10 * EPSILON)); [constructor|].
  eapply rrel_bind; [apply (sim_step SIM _ _ _ _ _ hh); exact HI|]. intros [a w1] [b w1'] (E1 & E2 & E3). cbn [fst snd] in *. subst w1'.
  destruct (w_diverging w1).
  { apply IH. split; [unfold same_view; cbn; splits; auto|]. cbn [d_s d_w d_x d_y]. eapply (sim_again SIM); [exact E3|reflexivity|reflexivity]. }
  destruct (Rltb (w_rel_error w1) 1).
  - eapply rrel_bind; [apply (sim_accept SIM); exact E3|]. intros [[[a' wa] xa] ya] [[[b' wb] xb] yb] (F1 & F2 & F3 & F4 & F5). subst wb xb yb.
    apply rrel_bind_same. intros [] _.
    fold (after_accept P hh wa). set (w' := after_accept P hh wa).
    assert (HI' : I0 a' b' w' xa ya).
    { apply F5; unfold w', after_accept; destruct (w_follows_reject wa); reflexivity. }
    rewrite (exec_same a' b' w' hh xa ya oo (sim_dense SIM _ _ _ _ _ HI')).
    apply rrel_bind_same. intros [stop oo'] _. destruct stop; [|destruct l].
    + constructor. cbn; unfold same_view; cbn; splits; auto. now exists w', xa, ya.
    + constructor. cbn; unfold same_view; cbn; splits; auto. now exists w', xa, ya.
    + apply IH; split; [unfold same_view; cbn; splits; auto|exact HI'].
  - set (w2 := set_w_follows_reject true (if 0 <? n_accepted (w_stats w1) then add_n_rejected w1 else w1)).
    assert (NA : n_accepted (w_stats w2) = n_accepted (w_stats w1)) by (unfold w2; destruct (0 <? n_accepted (w_stats w1)); reflexivity).
    destruct ((n_accepted (w_stats w2) =? 0) && Rltb 0 (m_first_reject (p_step P))).
    + apply IH. split; [unfold same_view; cbn; splits; auto|]. cbn [d_s d_w d_x d_y]. eapply (sim_again SIM); [exact E3|reflexivity|exact NA].
    + destruct (sim_reject SIM a b w1 x y hh w2 E3 eq_refl NA) as [G1 G2].
      destruct (m_reject M1 a w2 hh) as [a' wa], (m_reject M2 b w2 hh) as [b' wb]. cbn [fst snd] in *. subst wb.
      apply IH. split; [unfold same_view; cbn; splits; auto|exact G2].
Qed.

Lemma initialize_with_dense x0 x1 st o o' : o_initialize x0 x1 st o = Ok o' -> with_dense_output o' = with_dense_output o.
Proof.
  unfold o_initialize. intros E. apply bind_ok in E as ([] & _ & E). cbv zeta in E. apply bind_ok in E as (o2 & E2 & E). injection E as <-.
  assert (X : with_dense_output o2 = with_dense_output o).
  { destruct (o_initialized o && o_step_rec (set_o_stiff_rec st o)) in E2; cbn [o_initialized set_o_stiff_rec] in E2;
    repeat match type of E2 with context [if ?c then _ else _] => match c with _ && _ => destruct c end end;
    (destruct (with_dense_output _) in E2; [apply bind_ok in E2 as (dx & _ & E2)|]; injection E2 as <-; reflexivity). }
  exact X.
Qed.

Lemma solve_same ndim s1 s2 w1 w2 y0 x0 x1 h_equal oo :
  (length y0 = ndim -> dense_requested oo = false -> forall w, at_start w -> I0 s1 s2 w x0 y0) ->
  (length y0 = ndim -> dense_requested oo = true ->
     rrel (fun a b => forall w, at_start w -> I0 a b w x0 y0) (m_enable_dense M1 s1) (m_enable_dense M2 s2)) ->
  same_run J (solve M1 all_finite P ndim s1 w1 y0 x0 x1 h_equal oo) (solve M2 all_finite P ndim s2 w2 y0 x0 x1 h_equal oo).
Proof.
  intros Hn Hd. unfold solve.
  destruct (length y0 =? ndim) eqn:En; cbn [negb]; [|constructor]. apply Nat.eqb_eq in En. specialize (Hn En). specialize (Hd En).
  destruct (Rleb x1 x0); [constructor|].
  apply rrel_bind_same. intros [equal h] _. apply rrel_bind_same. intros [] _.
  change (workspace_reset h (rel_error_prev_min (p_step P)) w2) with (workspace_reset h (rel_error_prev_min (p_step P)) w1).
  set (w := workspace_reset h (rel_error_prev_min (p_step P)) w1).
  assert (W : at_start w) by (unfold w, workspace_reset, at_start; cbn; split; reflexivity).
  apply rrel_bind with (P := fun p q => snd p = snd q /\ I0 (fst p) (fst q) w x0 y0).
  { destruct oo as [o|]; [|constructor; cbn; split; [reflexivity|now apply Hn]].
    apply rrel_bind_same. intros o' Eo. apply initialize_with_dense in Eo. rewrite Eo. cbn [dense_requested] in Hn, Hd.
    destruct (with_dense_output o).
    - eapply rrel_bind; [now apply Hd|]. intros a b H. constructor. cbn. split; [reflexivity|now apply H].
    - constructor. cbn. split; [reflexivity|now apply Hn]. }
  intros [a oa] [b ob] (E & HI). cbn [fst snd] in *. subst ob.
  rewrite (exec_same a b w h x0 y0 oa (sim_dense SIM _ _ _ _ _ HI)).
  apply rrel_bind_same. intros [stop oo'] _. cbv zeta.
  destruct stop; [constructor; unfold same_view; cbn; splits; auto; now exists w, x0, y0|].
  destruct equal.
  - eapply rrel_bind.
    + apply equal_same; [split; [unfold same_view; cbn; splits; auto|exact HI]|reflexivity].
    + intros [st d1] [st2 d2] (F1 & (V1 & V2 & V3 & V4 & V5 & V6) & HJ). cbn [fst snd] in *. subst st2.
      destruct st; [constructor; cbn; unfold same_view; splits; auto|].
      rewrite V1, V2, V3, V4, V5, V6. apply rrel_bind_same. intros o _. constructor. cbn; unfold same_view; cbn; splits; auto.
  - eapply rrel_bind.
    + apply var_same. split; [unfold same_view; cbn; splits; auto|exact HI].
    + intros [e d1] [e2 d2] (F1 & (V1 & V2 & V3 & V4 & V5 & V6) & HJ). cbn [fst snd] in *. subst e2.
      destruct e; [constructor; cbn; unfold same_view; splits; auto| |];
        rewrite ?V1, ?V2, ?V3, ?V4, ?V5, ?V6; (apply rrel_bind_same; intros o _); constructor; unfold same_view; cbn; splits; auto.
Qed.
End Sim.
