(** Reasoning about the computations of Nonlin_Model. *)
From Verif Require Export Nonlin_Model.
Local Open Scope nat_scope.

Lemma mbind_ok {E X Y} (m : M E X) (k : X -> M E Y) e e' y :
  mbind m k e = (e', Ok y) -> exists e1 x, m e = (e1, Ok x) /\ k x e1 = (e', Ok y).
Proof. unfold mbind. destruct (m e) as [e1 [x|s|]]; intros H; [eauto | discriminate | discriminate]. Qed.

(** inversion of a successful run *)
Ltac minv H :=
  lazymatch type of H with
  | mbind ?m ?k ?e = (?e', Ok ?y) =>
      let e1 := fresh "e" in let x := fresh "x" in let H1 := fresh "H" in
      apply mbind_ok in H; destruct H as (e1 & x & H1 & H); cbv beta in H
  end.

Lemma ret_inv {E X} (x y : X) (e e' : E) : ret x e = (e', Ok y) -> e' = e /\ y = x.
Proof. intros H; injection H; auto. Qed.
Lemma lift_inv {E X} (r : res X) (y : X) (e e' : E) : lift r e = (e', Ok y) -> e' = e /\ r = Ok y.
Proof. intros H; injection H; auto. Qed.
Lemma modify_inv {E} (f : E -> E) (e e' : E) y : modify f e = (e', Ok y) -> e' = f e.
Proof. intros H; injection H; auto. Qed.
Lemma get_inv {E} (e e' y : E) : get e = (e', Ok y) -> e' = e /\ y = e.
Proof. intros H; injection H; auto. Qed.
Lemma getw_inv {S A} (e e' : env S A) w : getw e = (e', Ok w) -> e' = e /\ w = e_w e.
Proof. intros H; injection H; auto. Qed.
Lemma gets_inv {S A} (e e' : env S A) w : gets e = (e', Ok w) -> e' = e /\ w = e_s e.
Proof. intros H; injection H; auto. Qed.

Lemma modw_inv {S A} f (e e' : env S A) y : modw f e = (e', Ok y) -> e' = set_e_w (f (e_w e)) e.
Proof. intros H; injection H; auto. Qed.
Lemma mods_inv {S A} f (e e' : env S A) y : mods f e = (e', Ok y) -> e' = set_e_s (f (e_s e)) e.
Proof. intros H; injection H; auto. Qed.
Lemma modst_inv {S A} f (e e' : env S A) y :
  modst f e = (e', Ok y) -> e' = set_e_w (set_w_stats (f (w_stats (e_w e))) (e_w e)) e.
Proof. intros H; injection H; auto. Qed.

(** inverts all the primitive steps found in the hypotheses *)
Ltac msimp :=
  repeat match goal with
  | H : mbind _ _ _ = (_, Ok _) |- _ => minv H
  | H : ret _ _ = (_, Ok _) |- _ => apply ret_inv in H; destruct H as [? H]; subst
  | H : lift _ _ = (_, Ok _) |- _ => apply lift_inv in H; destruct H as [? H]; subst
  | H : get _ = (_, Ok _) |- _ => apply get_inv in H; destruct H as [? H]; subst
  | H : getw _ = (_, Ok _) |- _ => apply getw_inv in H; destruct H as [? H]; subst
  | H : gets _ = (_, Ok _) |- _ => apply gets_inv in H; destruct H as [? H]; subst
  | H : modw _ _ = (_, Ok _) |- _ => apply modw_inv in H; subst
  | H : mods _ _ = (_, Ok _) |- _ => apply mods_inv in H; subst
  | H : modst _ _ = (_, Ok _) |- _ => apply modst_inv in H; subst
  | H : modify _ _ = (_, Ok _) |- _ => apply modify_inv in H; subst
  | H : Ok _ = Ok _ |- _ => injection H as H; subst
  | H : (_, _) = (_, _) |- _ => injection H as; subst
  | H : Panic = Ok _ |- _ => discriminate H
  | H : Err _ = Ok _ |- _ => discriminate H
  end.

(** Hoare triples: [Q] after success, [Z] after an error or a panic *)
Definition triple {E X} (P : E -> Prop) (m : M E X) (Q : X -> E -> Prop) (Z : E -> Prop) : Prop :=
  forall e, P e -> match m e with (e', Ok x) => Q x e' | (e', _) => Z e' end.

Section Triples.
Context {E : Type}.
Lemma t_ret {X} (x : X) (P : E -> Prop) (Q : X -> E -> Prop) (Z : E -> Prop) : (forall e, P e -> Q x e) -> triple P (ret x) Q Z.
Proof. intros H e He; exact (H e He). Qed.
Lemma t_bind {X Y} (m : M E X) (k : X -> M E Y) (P : E -> Prop) (Q' : X -> E -> Prop) (Q : Y -> E -> Prop) (Z : E -> Prop) :
  triple P m Q' Z -> (forall x, triple (Q' x) (k x) Q Z) -> triple P (mbind m k) Q Z.
Proof.
  intros H1 H2 e He. specialize (H1 e He). unfold mbind. destruct (m e) as [e1 [x|s|]]; auto.
  exact (H2 x e1 H1).
Qed.
Lemma t_lift {X} (r : res X) (P : E -> Prop) (Q : X -> E -> Prop) (Z : E -> Prop) :
  (forall e, P e -> match r with Ok x => Q x e | _ => Z e end) -> triple P (lift r) Q Z.
Proof. intros H e He. specialize (H e He). unfold lift. destruct r; exact H. Qed.
Lemma t_modify (f : E -> E) (P : E -> Prop) (Q : unit -> E -> Prop) (Z : E -> Prop) : (forall e, P e -> Q tt (f e)) -> triple P (modify f) Q Z.
Proof. intros H e He; exact (H e He). Qed.
Lemma t_get (P : E -> Prop) (Q : E -> E -> Prop) (Z : E -> Prop) : (forall e, P e -> Q e e) -> triple P get Q Z.
Proof. intros H e He; exact (H e He). Qed.
Lemma t_if {X} (b : bool) (m1 m2 : M E X) (P : E -> Prop) (Q : X -> E -> Prop) (Z : E -> Prop) :
  (b = true -> triple P m1 Q Z) -> (b = false -> triple P m2 Q Z) -> triple P (if b then m1 else m2) Q Z.
Proof. destruct b; auto. Qed.
Lemma t_pre {X} (m : M E X) (P P' : E -> Prop) (Q : X -> E -> Prop) (Z : E -> Prop) : (forall e, P e -> P' e) -> triple P' m Q Z -> triple P m Q Z.
Proof. intros H T e He; exact (T e (H e He)). Qed.
Lemma t_post {X} (m : M E X) (P : E -> Prop) (Q Q' : X -> E -> Prop) (Z Z' : E -> Prop) :
  triple P m Q Z -> (forall x e, Q x e -> Q' x e) -> (forall e, Z e -> Z' e) -> triple P m Q' Z'.
Proof. intros T H1 H2 e He. specialize (T e He). destruct (m e) as [e' [x|s|]]; auto. Qed.

(** the loop: [I i x] holds before pass i; the result satisfies [Q] *)
Lemma t_loop {X} (body : nat -> X -> M E (bool * X)) (I : nat -> X -> E -> Prop) (Q : X -> E -> Prop) (Z : E -> Prop) :
  forall n i x,
  (forall j y, i <= j < i + n ->
     triple (I j y) (body j y) (fun r e => if fst r then Q (snd r) e else I (j + 1) (snd r) e) Z) ->
  (forall y e, I (i + n) y e -> Q y e) ->
  triple (I i x) (mloop n i body x) Q Z.
Proof.
  induction n as [|n IH]; intros i x HB HQ; simpl.
  - apply t_ret. intros e He. apply HQ. rewrite Nat.add_0_r. exact He.
  - eapply t_bind; [apply HB; lia|]. intros [b y]; simpl. destruct b.
    + apply t_ret; auto.
    + apply IH.
      * intros j z Hj. apply HB; lia.
      * intros z e He. apply HQ. replace (i + S n) with (i + 1 + n) by lia. exact He.
Qed.
End Triples.

(** the fields of the workspace that only the driver may change *)
Definition same_flags (w w' : work) : Prop :=
  w_auto w' = w_auto w /\ w_n_cont_failure w' = w_n_cont_failure w /\
  w_n_cont_rejection w' = w_n_cont_rejection w /\ w_follows_failure w' = w_follows_failure w /\
  w_follows_rejection w' = w_follows_rejection w /\ w_target_reached w' = w_target_reached w /\
  st_n_steps (w_stats w') = st_n_steps (w_stats w) /\
  st_n_accepted (w_stats w') = st_n_accepted (w_stats w) /\
  st_n_rejected (w_stats w') = st_n_rejected (w_stats w) /\
  st_h_accepted (w_stats w') = st_h_accepted (w_stats w).

Lemma same_flags_refl w : same_flags w w.
Proof. repeat split. Qed.
Lemma same_flags_trans w1 w2 w3 : same_flags w1 w2 -> same_flags w2 w3 -> same_flags w1 w3.
Proof. unfold same_flags. intuition congruence. Qed.

(** [frame m]: the computation leaves these fields alone, whatever its outcome *)
Definition frame {S A X} (m : M (env S A) X) : Prop := forall e, same_flags (e_w e) (e_w (fst (m e))).

Section Frames.
Context {S A : Type}.
Lemma fr_ret {X} (x : X) : frame (S := S) (A := A) (ret x).
Proof. intros e; apply same_flags_refl. Qed.
Lemma fr_lift {X} (r : res X) : frame (S := S) (A := A) (lift r).
Proof. intros e; apply same_flags_refl. Qed.
Lemma fr_getw : frame (S := S) (A := A) getw.
Proof. intros e; apply same_flags_refl. Qed.
Lemma fr_gets : frame (S := S) (A := A) gets.
Proof. intros e; apply same_flags_refl. Qed.
Lemma fr_bind {X Y} (m : M (env S A) X) (k : X -> M (env S A) Y) :
  frame m -> (forall x, frame (k x)) -> frame (mbind m k).
Proof.
  intros H1 H2 e. specialize (H1 e). unfold mbind. destruct (m e) as [e1 [x|s|]]; simpl in *; auto.
  eapply same_flags_trans; [exact H1 | apply H2].
Qed.
Lemma fr_if {X} (b : bool) (m1 m2 : M (env S A) X) : frame m1 -> frame m2 -> frame (if b then m1 else m2).
Proof. destruct b; auto. Qed.
Lemma fr_mods (f : S -> S) : frame (A := A) (mods f).
Proof. intros e; apply same_flags_refl. Qed.
Lemma fr_modw (f : work -> work) : (forall w, same_flags w (f w)) -> frame (S := S) (A := A) (modw f).
Proof. intros H e; apply H. Qed.
Lemma fr_modst (f : stats -> stats) :
  (forall s, st_n_steps (f s) = st_n_steps s /\ st_n_accepted (f s) = st_n_accepted s /\
             st_n_rejected (f s) = st_n_rejected s /\ st_h_accepted (f s) = st_h_accepted s) ->
  frame (S := S) (A := A) (modst f).
Proof. intros H e. destruct (H (w_stats (e_w e))) as (? & ? & ? & ?). repeat split; simpl; assumption. Qed.
Lemma fr_args (f : option (A -> A)) : frame (S := S) (call_args f).
Proof. destruct f; intros e; apply same_flags_refl. Qed.
Lemma fr_loop {X} (body : nat -> X -> M (env S A) (bool * X)) :
  (forall i x, frame (body i x)) -> forall n i x, frame (mloop n i body x).
Proof.
  intros HB. induction n as [|n IH]; intros i x; simpl; [apply fr_ret|].
  apply fr_bind; [apply HB|]. intros [b y]; simpl. destruct b; [apply fr_ret | apply IH].
Qed.
Lemma fr_gg (sys : system A) : frame (S := S) (call_gg sys).
Proof.
  unfold call_gg. apply fr_bind.
  - apply fr_modst. intros s; repeat split.
  - intros _ e. destruct (y_gg sys _ _ _ _) as [a [g|m|]]; repeat split.
Qed.
Lemma fr_update (sys : system A) b u l : frame (S := S) (call_update sys b u l).
Proof.
  unfold call_update. destruct (y_update sys) as [f|]; [|apply fr_ret].
  intros e. destruct (f _ _ _ _ _ _) as [a r]. repeat split.
Qed.
Lemma fr_residual fin cfg nn : frame (S := S) (A := A) (an_residual fin cfg nn).
Proof. intros e. unfold an_residual. destruct (analyze_residual _ _ _ _ _ _). repeat split. Qed.
Lemma fr_delta fin cfg x : frame (S := S) (A := A) (an_delta fin cfg x).
Proof. intros e. unfold an_delta. destruct (analyze_delta _ _ _ _ _) as [[? ?]|?|]; repeat split. Qed.
Lemma fr_failures cfg : frame (S := S) (A := A) (an_failures cfg).
Proof. intros e. unfold an_failures. destruct (capture_failures _ _ _) as [[? ?]|?|]; repeat split. Qed.
End Frames.

Ltac fr :=
  repeat first
    [ lazymatch goal with |- frame (mbind _ _) => apply fr_bind; [|intros] end
    | lazymatch goal with |- frame (if _ then _ else _) => apply fr_if end | apply fr_ret | apply fr_lift | apply fr_getw | apply fr_gets
    | apply fr_mods | apply fr_args | apply fr_gg | apply fr_update | apply fr_residual | apply fr_delta
    | apply fr_failures | apply fr_loop; intros | apply fr_modst; intros; repeat split
    | apply fr_modw; intros; repeat split
    | match goal with |- frame (match ?x with _ => _ end) => destruct x end
    | match goal with |- frame (let '(_, _) := ?x in _) => destruct x end ].

Section FramesShared.
Context {S A : Type}.
Variable fin : R -> bool.
Variable cfg : config.
Variable sys : system A.
Lemma fr_debug : frame (S := S) (A := A) (push_debug cfg).
Proof. unfold push_debug. fr. Qed.
Lemma fr_reject : frame (S := S) (reject cfg sys).
Proof. unfold reject. fr. Qed.
Lemma fr_begin u l : frame (S := S) (step_begin cfg sys u l).
Proof.
  unfold step_begin. fr; unfold record_start; destruct (c_record_residuals cfg); auto; destruct (st_residuals s); auto.
Qed.
Lemma fr_iterations m : frame m -> frame (S := S) (A := A) (iterations cfg m).
Proof.
  intros H. unfold iterations. fr; auto; unfold record_append, record_stop; destruct (c_record_residuals cfg); auto;
    destruct (converged _); auto; destruct (st_residuals s); auto.
Qed.
Lemma fr_after x m u l : frame m -> frame (S := S) (after_solve fin cfg sys x m u l).
Proof. intros H. unfold after_solve, is_conv. fr; auto. Qed.
End FramesShared.

Section FramesNatural.
Context {F A : Type}.
Variable fin : R -> bool.
Variable cfg : config.
Variable sys : system A.
Variable lin : linsolver F.
Lemma fr_nat_jac : frame (nat_jac F A cfg sys lin).
Proof.
  unfold nat_jac, write_matrix. fr.
  - intros e. destruct (y_jac sys _ _ _ _ _) as [a [[m g]|m|]]; repeat split.
  - intros e. destruct (ls_factorize lin _ _) as [f r]; repeat split.
Qed.
Lemma fr_nat_solve b : frame (nat_solve F A lin b).
Proof. unfold nat_solve. fr. Qed.
Lemma fr_nat_iterate u l : frame (nat_iterate F A fin cfg sys lin u l).
Proof.
  unfold nat_iterate, is_conv. fr; [apply fr_nat_jac | apply fr_nat_solve | ]. apply fr_after. fr.
Qed.
Lemma fr_nat_step u l st : frame (nat_step F A fin cfg sys lin u l st).
Proof.
  unfold nat_step, nat_lambda, nat_predict.
  fr; try apply fr_begin; try apply fr_nat_jac; try apply fr_nat_solve; try apply fr_debug.
  apply fr_iterations, fr_nat_iterate.
Qed.
Lemma fr_nat_accept u l : frame (nat_accept F A cfg sys u l).
Proof. unfold nat_accept, nat_rerr. fr. Qed.
Lemma fr_nat_initialize d u l b : frame (nat_initialize F A d u l b).
Proof. unfold nat_initialize. fr. Qed.
End FramesNatural.

Section FramesArclength.
Context {F A : Type}.
Variable fin : R -> bool.
Variable cfg : config.
Variable sys : system A.
Variable lin : linsolver F.
Lemma fr_arc_jac : frame (arc_jac F A cfg sys lin).
Proof.
  unfold arc_jac, arc_write_matrix. fr.
  - intros e. destruct (y_jac sys _ _ _ _ _) as [a [[m g]|m|]]; repeat split.
  - intros e. destruct (ls_factorize lin _ _) as [f r]; repeat split.
Qed.
Lemma fr_arc_aa b : frame (arc_aa F A cfg sys lin b).
Proof.
  unfold arc_aa, arc_write_matrix. fr.
  - intros e. destruct (y_jac sys _ _ _ _ _) as [a [[m g]|m|]]; repeat split.
  - intros e. destruct (ls_factorize lin _ _) as [f r]; repeat split.
Qed.
Lemma fr_arc_solve b : frame (arc_solve F A lin b).
Proof. unfold arc_solve. fr. Qed.
Lemma fr_arc_initialize d u l b : frame (arc_initialize F A cfg sys lin d u l b).
Proof.
  unfold arc_initialize, arc_initial_tangent. fr; try apply fr_arc_jac; try apply fr_arc_aa; apply fr_arc_solve.
Qed.
Lemma fr_arc_tangent : frame (arc_update_tangent F A cfg sys lin).
Proof. unfold arc_update_tangent. fr; try apply fr_arc_jac; try apply fr_arc_aa; apply fr_arc_solve. Qed.
Lemma fr_arc_iterate u l : frame (arc_iterate F A fin cfg sys lin u l).
Proof.
  unfold arc_iterate, is_conv, arc_nn, arc_bordering, arc_augmented.
  fr; try apply fr_arc_jac; try apply fr_arc_aa; try apply fr_arc_solve. apply fr_after. fr.
Qed.
Lemma fr_arc_step u l st : frame (arc_step F A fin cfg sys lin u l st).
Proof.
  unfold arc_step, arc_lambda, arc_predict.
  fr; try apply fr_begin; try apply fr_debug; try apply fr_arc_tangent.
  apply fr_iterations, fr_arc_iterate.
Qed.
Lemma fr_arc_accept u l : frame (arc_accept F A cfg sys u l).
Proof. unfold arc_accept, arc_rdiff. fr. Qed.
End FramesArclength.

(** [keeps Q m]: the computation keeps the property Q of the state, whatever its outcome *)
Definition keeps {E X} (Q : E -> Prop) (m : M E X) : Prop := forall e, Q e -> Q (fst (m e)).

Section Keeps.
Context {S A : Type}.
Variable Q : env S A -> Prop.
Lemma kp_ret {X} (x : X) : keeps Q (ret x).
Proof. intros e H; exact H. Qed.
Lemma kp_lift {X} (r : res X) : keeps Q (lift r).
Proof. intros e H; exact H. Qed.
Lemma kp_getw : keeps Q getw.
Proof. intros e H; exact H. Qed.
Lemma kp_gets : keeps Q gets.
Proof. intros e H; exact H. Qed.
Lemma kp_bind {X Y} (m : M (env S A) X) (k : X -> M (env S A) Y) :
  keeps Q m -> (forall x, keeps Q (k x)) -> keeps Q (mbind m k).
Proof.
  intros H1 H2 e He. specialize (H1 e He). unfold mbind. destruct (m e) as [e1 [x|s|]]; simpl in *; auto.
  apply (H2 x e1 H1).
Qed.
Lemma kp_if {X} (b : bool) (m1 m2 : M (env S A) X) : keeps Q m1 -> keeps Q m2 -> keeps Q (if b then m1 else m2).
Proof. destruct b; auto. Qed.
Lemma kp_loop {X} (body : nat -> X -> M (env S A) (bool * X)) :
  (forall i x, keeps Q (body i x)) -> forall n i x, keeps Q (mloop n i body x).
Proof.
  intros HB. induction n as [|n IH]; intros i x; simpl; [apply kp_ret|].
  apply kp_bind; [apply HB|]. intros [b y]; simpl. destruct b; [apply kp_ret | apply IH].
Qed.
Lemma kp_modw f : (forall e, Q e -> Q (set_e_w (f (e_w e)) e)) -> keeps Q (modw f).
Proof. intros H e He. exact (H e He). Qed.
Lemma kp_mods f : (forall e, Q e -> Q (set_e_s (f (e_s e)) e)) -> keeps Q (mods f).
Proof. intros H e He. exact (H e He). Qed.
Lemma kp_modst f : (forall e, Q e -> Q (set_e_w (set_w_stats (f (w_stats (e_w e))) (e_w e)) e)) -> keeps Q (modst f).
Proof. intros H e He. exact (H e He). Qed.
Lemma kp_args f : (forall a e, Q e -> Q (set_e_a a e)) -> keeps Q (call_args f).
Proof. intros H. destruct f; intros e He; [apply H, He | exact He]. Qed.
Lemma kp_gg (sys : system A) :
  (forall a e, Q e -> Q (set_e_a a e)) ->
  (forall s e, Q e -> Q (set_e_w (set_w_stats s (e_w e)) e)) ->
  (forall g e, Q e -> Q (set_e_w (set_w_gg g (e_w e)) e)) -> keeps Q (call_gg sys).
Proof.
  intros H1 H2 H3. unfold call_gg. apply kp_bind.
  - apply kp_modst. intros e He. apply H2, He.
  - intros _ e He. destruct (y_gg sys _ _ _ _) as [a [g|m|]]; try (apply H1, He).
    apply (H3 g (set_e_a a e)). apply H1, He.
Qed.
Lemma kp_update (sys : system A) b u l : (forall a e, Q e -> Q (set_e_a a e)) -> keeps Q (call_update sys b u l).
Proof.
  intros H. unfold call_update. destruct (y_update sys) as [f|]; [|apply kp_ret].
  intros e He. destruct (f _ _ _ _ _ _) as [a r]. apply H, He.
Qed.
Lemma kp_residual fin cfg nn : (forall r e, Q e -> Q (set_e_w (set_w_err r (e_w e)) e)) -> keeps Q (an_residual fin cfg nn).
Proof. intros H e He. unfold an_residual. destruct (analyze_residual _ _ _ _ _ _). apply H, He. Qed.
Lemma kp_delta fin cfg x : (forall r e, Q e -> Q (set_e_w (set_w_err r (e_w e)) e)) -> keeps Q (an_delta fin cfg x).
Proof. intros H e He. unfold an_delta. destruct (analyze_delta _ _ _ _ _) as [[? ?]|?|]; auto. apply H, He. Qed.
Lemma kp_failures cfg : (forall r e, Q e -> Q (set_e_w (set_w_err r (e_w e)) e)) -> keeps Q (an_failures cfg).
Proof. intros H e He. unfold an_failures. destruct (capture_failures _ _ _) as [[? ?]|?|]; auto. apply H, He. Qed.
End Keeps.

(** [side] closes the closure conditions *)
Ltac kp side :=
  repeat first
    [ lazymatch goal with |- keeps _ (mbind _ _) => apply kp_bind; [|intros] end
    | lazymatch goal with |- keeps _ (if _ then _ else _) => apply kp_if end
    | apply kp_ret | apply kp_lift | apply kp_getw | apply kp_gets
    | apply kp_mods; solve [side] | apply kp_args; solve [side] | apply kp_gg; solve [side] | apply kp_update; solve [side]
    | apply kp_residual; solve [side] | apply kp_delta; solve [side] | apply kp_failures; solve [side]
    | apply kp_loop; intros | apply kp_modst; solve [side] | apply kp_modw; solve [side]
    | match goal with |- keeps _ (match ?x with _ => _ end) => destruct x end
    | match goal with |- keeps _ (let '(_, _) := ?x in _) => destruct x end ].
