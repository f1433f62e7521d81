(** C70: the recorded columns of the continuation output. *)
From Verif Require Export Nonlin_Drv_Thm.
Local Open Scope nat_scope.

(* ------------------------------------------------------------------ *)
(** * Specification *)

(** one recorded state *)
Record row := mkRow { r_u : vec; r_l : R; r_h : R; r_duds : vec; r_dlds : R }.
(** the tangent is available (pseudo-arclength method) *)
Definition has_tangent (r : row) : bool := length (r_duds r) =? length (r_u r).

(** the columns of [o] are those of the table [rows], in this order *)
Record holds {A} (o : output A) (rows : list row) : Prop := {
  h_l : o_l o = map r_l rows;
  h_h : o_h o = map r_h rows;
  h_u : forall m col, get_u_values o m = Ok col ->
          col = map (fun r => nth m (r_u r) 0%R) rows /\ forall r, In r rows -> m < length (r_u r);
  h_norm : match o_norm o with
           | Some (k, start, stop) => Forall2 (fun x r => vnorm_chunk (r_u r) k start stop = Ok x) (o_norm_u o) rows
           | None => o_norm_u o = []
           end;
  h_dlds : o_dlds o = map r_dlds (filter has_tangent rows);
  h_duds : forall m col, get_duds_values o m = Ok col ->
          col = map (fun r => nth m (r_duds r) 0%R) (filter has_tangent rows) }.

(** which components are recorded, and how *)
Definition same_setup {A} (o o' : output A) : Prop :=
  o_rec o' = o_rec o /\ o_norm o' = o_norm o /\ o_cb o' = o_cb o /\
  map fst (o_u o') = map fst (o_u o) /\ map fst (o_duds o') = map fst (o_duds o).

(** an Output that was only configured *)
Inductive configured {A} : output A -> Prop :=
| cf_new : configured (output_new A)
| cf_callback cb o : configured o -> configured (set_callback cb o)
| cf_recording b us ds o : configured o -> configured (set_recording b us ds o)
| cf_norm b k i j o : configured o -> configured (set_record_norm_u b k i j o).

(** a sequence of calls made by a solver, with the answers *)
Fixpoint exec_all {A} (es : list (work * vec * R)) (o : output A) (a : A) : output A * A * list (res bool) :=
  match es with
  | [] => (o, a, [])
  | (w, u, l) :: t =>
      let '(o1, a1, r) := execute w u l o a in
      let '(o2, a2, rs) := exec_all t o1 a1 in
      (o2, a2, r :: rs)
  end.
Definition row_at (e : work * vec * R) : row :=
  let '(w, u, l) := e in mkRow u l (w_h w) (w_duds w) (w_dlds w).
(** the calls that did not ask to stop and did not fail *)
Fixpoint went_on (es : list (work * vec * R)) (rs : list (res bool)) : list row :=
  match es, rs with
  | e :: es, r :: rs => match r with Ok false => row_at e :: went_on es rs | _ => went_on es rs end
  | _, _ => []
  end.

(** the table of a run from (u0, l0): the initial state, then every accepted state *)
Inductive trace {S A} (ops : solver_ops S A) (Inv : S -> Prop) (st : stop) (u0 : vec) (l0 : R) : list row -> vec -> R -> Prop :=
| tr_1 r : r_u r = u0 -> r_l r = l0 -> trace ops Inv st u0 l0 [r] u0 l0
| tr_S rows u l r : trace ops Inv st u0 l0 rows u l -> acc_step ops Inv st u l (r_u r) (r_l r) ->
    trace ops Inv st u0 l0 (rows ++ [r]) (r_u r) (r_l r).

(* ------------------------------------------------------------------ *)
(** * One call *)

Lemma push_all_ok cols v cols' : push_all cols v = Ok cols' ->
  map fst cols' = map fst cols /\
  forall m, match hm_get cols m with
            | Some c => m < length v /\ hm_get cols' m = Some (c ++ [nth m v 0%R])
            | None => hm_get cols' m = None
            end.
Proof.
  revert cols'. induction cols as [|[m c] t IH]; intros cols' H; simpl in H.
  - injection H as <-. split; [reflexivity|]. intros m. reflexivity.
  - destruct (vget v m) as [x|?|] eqn:E; try discriminate H. simpl in H.
    destruct (push_all t v) as [t'|?|] eqn:Et; try discriminate H. injection H as <-.
    destruct (IH _ eq_refl) as [I1 I2]. apply (vget_ok_inv _ _ _ 0%R) in E. destruct E as [E1 E2].
    split; [simpl; congruence|]. intros j. unfold hm_get in *. simpl.
    destruct (Nat.eqb_spec m j) as [<-|N]; [split; [exact E1 | rewrite E2; reflexivity]|]. apply I2.
Qed.

Lemma record_row_ok {A} w u l (o o' : output A) rows : record_row w u l o = Ok o' -> holds o rows ->
  holds o' (rows ++ [row_at (w, u, l)]) /\ same_setup o o'.
Proof.
  unfold record_row. intros H HO.
  destruct (match o_norm o with
            | Some (k, start, stop) => x <- vnorm_chunk u k start stop ;; Ok (set_o_norm_u (o_norm_u o ++ [x]) o)
            | None => Ok o end) as [o1|?|] eqn:En; try discriminate H. simpl in H.
  assert (Q : o_rec o1 = o_rec o /\ o_norm o1 = o_norm o /\ o_cb o1 = o_cb o /\ o_u o1 = o_u o /\ o_l o1 = o_l o /\ o_h o1 = o_h o /\
              o_duds o1 = o_duds o /\ o_dlds o1 = o_dlds o /\
              match o_norm o with
              | Some (k, start, stop) => Forall2 (fun x r => vnorm_chunk (r_u r) k start stop = Ok x) (o_norm_u o1) (rows ++ [row_at (w, u, l)])
              | None => o_norm_u o1 = [] end).
  { pose proof (h_norm _ _ HO) as HN. destruct (o_norm o) as [[[k s] e]|] eqn:Eo.
    - destruct (vnorm_chunk u k s e) as [x|?|] eqn:Ev; try discriminate En. injection En as <-. simpl. rewrite Eo.
      repeat split; auto. apply Forall2_app; [exact HN|]. constructor; [exact Ev | constructor].
    - injection En as <-. rewrite Eo. repeat split; auto. }
  destruct Q as (Q1 & Q2 & Q3 & Q4 & Q5 & Q6 & Q7 & Q8 & Q9). clear En.
  destruct (push_all (o_u o1) u) as [cu|?|] eqn:Eu; try discriminate H. simpl in H.
  apply push_all_ok in Eu. destruct Eu as [U1 U2]. rewrite Q4 in U1, U2.
  destruct HO as [K1 K2 K3 K4 K5 K6].
  assert (KU : forall m col, match hm_get cu m with Some v => Ok v | None => Panic end = Ok col ->
     col = map (fun r => nth m (r_u r) 0%R) (rows ++ [row_at (w, u, l)]) /\ forall r, In r (rows ++ [row_at (w, u, l)]) -> m < length (r_u r)).
  { intros m col Hc. specialize (U2 m). destruct (hm_get (o_u o) m) as [c|] eqn:Eg.
    - destruct U2 as [Um U2]. rewrite U2 in Hc. injection Hc as <-. destruct (K3 m c) as [Kc Kl]; [unfold get_u_values; rewrite Eg; reflexivity|].
      rewrite map_app, Kc. split; [reflexivity|]. intros r Hr. apply in_app_iff in Hr. destruct Hr as [Hr|[<-|[]]]; [auto | exact Um].
    - rewrite U2 in Hc. discriminate Hc. }
  destruct (Nat.eqb_spec (length (w_duds w)) (length u)) as [L|L].
  - destruct (push_all (o_duds o1) (w_duds w)) as [cd|?|] eqn:Ed; try discriminate H.
    simpl in H. injection H as <-. apply push_all_ok in Ed. destruct Ed as [D1 D2]. rewrite Q7 in D1, D2.
    assert (Ht : filter has_tangent [row_at (w, u, l)] = [row_at (w, u, l)]).
    { assert (Q : has_tangent (row_at (w, u, l)) = true) by (apply Nat.eqb_eq; exact L). unfold filter. rewrite Q. reflexivity. }
    set (rw := row_at (w, u, l)) in *. split.
    + constructor; simpl.
      * rewrite Q5, K1, map_app. reflexivity.
      * rewrite Q6, K2, map_app. reflexivity.
      * exact KU.
      * rewrite Q2. exact Q9.
      * rewrite Q8, K5, filter_app, map_app. rewrite Ht. reflexivity.
      * intros m col Hc. unfold get_duds_values in Hc. simpl in Hc. specialize (D2 m). destruct (hm_get (o_duds o) m) as [c|] eqn:Eg.
        -- destruct D2 as [_ D2]. rewrite D2 in Hc. injection Hc as <-. rewrite (K6 m c) by (unfold get_duds_values; rewrite Eg; reflexivity).
           rewrite filter_app, map_app. rewrite Ht. reflexivity.
        -- rewrite D2 in Hc. discriminate Hc.
    + repeat split; simpl; congruence.
  - injection H as <-.
    assert (Ht : filter has_tangent [row_at (w, u, l)] = []).
    { assert (Q : has_tangent (row_at (w, u, l)) = false) by (apply Nat.eqb_neq; exact L). unfold filter. rewrite Q. reflexivity. }
    set (rw := row_at (w, u, l)) in *. split.
    + constructor; simpl.
      * rewrite Q5, K1, map_app. reflexivity.
      * rewrite Q6, K2, map_app. reflexivity.
      * exact KU.
      * rewrite Q2. exact Q9.
      * rewrite Q8, K5, filter_app. rewrite Ht, app_nil_r. reflexivity.
      * intros m col Hc. unfold get_duds_values in Hc. simpl in Hc. rewrite Q7 in Hc. rewrite (K6 m col Hc).
        rewrite filter_app. rewrite Ht, app_nil_r. reflexivity.
    + repeat split; simpl; congruence.
Qed.

Lemma same_setup_refl {A} (o : output A) : same_setup o o.
Proof. repeat split. Qed.
Lemma same_setup_trans {A} (a b c : output A) : same_setup a b -> same_setup b c -> same_setup a c.
Proof. unfold same_setup. intuition congruence. Qed.

(** One call: a request to stop or an error of the callback records nothing; otherwise, when the
    recording is on, exactly one row is added to all the columns. *)
Theorem C70_execute {A} w u l (o o' : output A) a a' r rows : execute w u l o a = (o', a', r) -> holds o rows ->
  same_setup o o' /\
  match r with
  | Ok true => o' = o /\ exists cb, o_cb o = Some cb /\ cb (w_stats w) u l (w_h w) a = (a', Ok true)
  | Ok false => if o_rec o then holds o' (rows ++ [row_at (w, u, l)]) else o' = o
  | Err _ => o' = o
  | Panic => True
  end.
Proof.
  unfold execute. intros H HO.
  destruct (o_cb o) as [cb|] eqn:Ec.
  - destruct (cb (w_stats w) u l (w_h w) a) as [a1 [[|]|m|]] eqn:Eb.
    + injection H as <- <- <-. split; [apply same_setup_refl|]. split; [reflexivity|]. exists cb. auto.
    + destruct (o_rec o) eqn:Er.
      * destruct (record_row w u l o) as [o1|?|] eqn:Ew; injection H as <- <- <-.
        -- destruct (record_row_ok _ _ _ _ _ _ Ew HO) as [P1 P2]. split; assumption.
        -- split; [apply same_setup_refl | reflexivity].
        -- split; [apply same_setup_refl | exact I].
      * injection H as <- <- <-. split; [apply same_setup_refl | reflexivity].
    + injection H as <- <- <-. split; [apply same_setup_refl | reflexivity].
    + injection H as <- <- <-. split; [apply same_setup_refl | exact I].
  - destruct (o_rec o) eqn:Er.
    + destruct (record_row w u l o) as [o1|?|] eqn:Ew; injection H as <- <- <-.
      * destruct (record_row_ok _ _ _ _ _ _ Ew HO) as [P1 P2]. split; assumption.
      * split; [apply same_setup_refl | reflexivity].
      * split; [apply same_setup_refl | exact I].
    + injection H as <- <- <-. split; [apply same_setup_refl | reflexivity].
Qed.

(** Any sequence of calls without panic: the table grows by exactly the calls that went on. *)
Theorem C70_history {A} es : forall (o o' : output A) a a' rs rows, exec_all es o a = (o', a', rs) -> ~ In Panic rs -> holds o rows ->
  same_setup o o' /\ length rs = length es /\
  holds o' (if o_rec o then rows ++ went_on es rs else rows).
Proof.
  induction es as [|[[w u] l] es IH]; intros o o' a a' rs rows H Hp HO; simpl in H.
  - injection H as <- <- <-. split; [apply same_setup_refl|]. split; [reflexivity|]. simpl. rewrite app_nil_r. destruct (o_rec o); exact HO.
  - destruct (execute w u l o a) as [[o1 a1] r] eqn:E1. destruct (exec_all es o1 a1) as [[o2 a2] rs1] eqn:E2. injection H as <- <- <-.
    destruct (C70_execute _ _ _ _ _ _ _ _ _ E1 HO) as [S1 X].
    assert (Hp1 : ~ In Panic rs1) by (intros Q; apply Hp; right; exact Q).
    assert (Nr : r <> Panic) by (intros ->; apply Hp; left; reflexivity).
    pose proof S1 as (R1 & _).
    destruct r as [[|]|m|]; [| | |congruence].
    + destruct X as [-> _]. destruct (IH _ _ _ _ _ _ E2 Hp1 HO) as (S2 & L2 & H2). split; [exact S2|]. split; [simpl; congruence | exact H2].
    + destruct (o_rec o) eqn:Er.
      * destruct (IH _ _ _ _ _ _ E2 Hp1 X) as (S2 & L2 & H2). split; [exact (same_setup_trans _ _ _ S1 S2)|]. split; [simpl; congruence|].
        rewrite R1 in H2. change (went_on ((w, u, l) :: es) (Ok false :: rs1)) with ([row_at (w, u, l)] ++ went_on es rs1).
        rewrite app_assoc. exact H2.
      * subst o1. destruct (IH _ _ _ _ _ _ E2 Hp1 HO) as (S2 & L2 & H2). split; [exact S2|]. split; [simpl; congruence|]. rewrite Er in H2. exact H2.
    + subst o1. destruct (IH _ _ _ _ _ _ E2 Hp1 HO) as (S2 & L2 & H2). split; [exact S2|]. split; [simpl; congruence | exact H2].
Qed.

Definition all_empty (cols : list (nat * list R)) : Prop := Forall (fun p => snd p = []) cols.
Lemma all_empty_get cols m c : all_empty cols -> hm_get cols m = Some c -> c = [].
Proof.
  unfold all_empty, hm_get. intros H E. destruct (find _ cols) as [p|] eqn:Ef; [|discriminate E]. injection E as <-.
  apply find_some in Ef. rewrite Forall_forall in H. apply H, Ef.
Qed.
Lemma all_empty_insert ms cols : all_empty cols -> all_empty (fold_left hm_insert ms cols).
Proof.
  revert cols. induction ms as [|x ms IH]; intros cols H; [exact H|]. simpl. apply IH. unfold all_empty, hm_insert in *.
  apply Forall_app. split; [|constructor; [reflexivity | constructor]].
  rewrite Forall_forall in *. intros p Hp. apply filter_In in Hp. apply H, Hp.
Qed.
(** A configured Output holds the empty table. *)
Theorem C70_configured {A} (o : output A) : configured o -> holds o [].
Proof.
  intros H.
  assert (Q : all_empty (o_u o) /\ all_empty (o_duds o) /\ o_l o = [] /\ o_h o = [] /\ o_norm_u o = [] /\ o_dlds o = []).
  { induction H as [|cb o H IH|b us ds o H IH|b k i j o H IH].
    - repeat split; constructor.
    - exact IH.
    - destruct IH as (I1 & I2 & I3). simpl. split; [apply all_empty_insert; exact I1|]. split; [apply all_empty_insert; exact I2|]. exact I3.
    - exact IH. }
  destruct Q as (Q1 & Q2 & Q3 & Q4 & Q5 & Q6). constructor; auto.
  - intros m col Hc. unfold get_u_values in Hc. destruct (hm_get (o_u o) m) eqn:E; [|discriminate Hc]. injection Hc as <-.
    split; [exact (all_empty_get _ _ _ Q1 E) | intros r []].
  - rewrite Q5. destruct (o_norm o) as [[[? ?] ?]|]; [constructor | reflexivity].
  - intros m col Hc. unfold get_duds_values in Hc. destruct (hm_get (o_duds o) m) eqn:E; [|discriminate Hc]. injection Hc as <-.
    exact (all_empty_get _ _ _ Q2 E).
Qed.

(* ------------------------------------------------------------------ *)
(** * Runs of the solver *)

Section Runs.
Context {S A : Type}.
Variable fin : R -> bool.
Variable cfg : config.
Variable ops : solver_ops S A.
Variable dir : bool.
Variable Inv : S -> Prop.
Hypothesis OK : ops_ok ops dir Inv.
Variable st : stop.
Variables (u0 : vec) (l0 : R) (o0 : output A) (rows0 : list row).
Hypothesis Rec : o_rec o0 = true.
Let D := drv S A.

(** the table of the states accepted so far *)
Definition tabled (rows : list row) (d : D) : Prop :=
  exists o, d_out d = Some o /\ same_setup o0 o /\ holds o (rows0 ++ rows).
Definition at_state (rows : list row) (d : D) : Prop :=
  tabled rows d /\ length rows = n_accepted d + 1 /\ trace ops Inv st u0 l0 rows (d_u d) (d_l d) /\
  w_target_reached (dwork d) = false /\ Inv (e_s (d_env d)).
(** the last accepted state is not recorded yet *)
Definition pending (rows : list row) (d : D) : Prop :=
  tabled rows d /\ length rows = n_accepted d /\
  (rows = [] /\ d_u d = u0 /\ d_l d = l0 \/
   exists u l, trace ops Inv st u0 l0 rows u l /\ acc_step ops Inv st u l (d_u d) (d_l d)) /\
  w_target_reached (dwork d) = false /\ Inv (e_s (d_env d)).
(** what a run ends with *)
Definition ended (d : D) : Prop :=
  exists rows, at_state rows d \/ pending rows d /\ user_stop d.

Lemma output_rows rows d d' b : pending rows d -> output_step S A d = (d', Ok b) ->
  if b then pending rows d' /\ user_stop d' else exists r, at_state (rows ++ [r]) d'.
Proof.
  intros (T & L & P & W & I) H. pose proof (output_same _ _ _ H) as (E1 & E2 & E3 & E4 & E5 & E6).
  destruct T as (o & To & Ts & Th). unfold output_step in H. rewrite To in H.
  destruct (execute (e_w (d_env d)) (d_u d) (d_l d) o (e_a (d_env d))) as [[o' a'] r] eqn:Ex. injection H as <- ->.
  destruct (C70_execute _ _ _ _ _ _ _ _ _ Ex Th) as [S1 X].
  destruct b.
  - destruct X as [-> _]. split; [|apply E5; reflexivity].
    split; [exists o; split; [reflexivity | split; assumption]|]. unfold n_accepted. rewrite E3. split; [exact L|]. rewrite E1, E2, E6. auto.
  - pose proof Ts as (Tr & _). rewrite Tr, Rec in X. exists (row_at (e_w (d_env d), d_u d, d_l d)).
    split; [exists o'; split; [reflexivity|]; split; [exact (same_setup_trans _ _ _ Ts S1) | rewrite app_assoc; exact X]|].
    unfold n_accepted. rewrite E3, app_length, L. split; [reflexivity|]. split; [|rewrite E6; auto].
    destruct P as [(-> & P1 & P2)|(u & l & P1 & P2)].
    + simpl. rewrite P1, P2. apply tr_1; reflexivity.
    + exact (tr_S _ _ _ _ _ _ _ _ (row_at (e_w (d_env d), d_u d, d_l d)) P1 P2).
Qed.

(** changes that do not touch the table *)
Definition quiet (d d' : D) : Prop :=
  d_out d' = d_out d /\ d_u d' = d_u d /\ d_l d' = d_l d /\ n_accepted d' = n_accepted d /\
  w_target_reached (dwork d') = w_target_reached (dwork d) /\ (Inv (e_s (d_env d)) -> Inv (e_s (d_env d'))).
Lemma at_quiet rows d d' : quiet d d' -> at_state rows d -> at_state rows d'.
Proof.
  intros (Q1 & Q2 & Q3 & Q4 & Q5 & Q6) (T & L & P & W & I). unfold at_state, tabled. rewrite Q1, Q2, Q3, Q4, Q5. repeat split; auto.
Qed.
Lemma pend_quiet rows d d' : quiet d d' -> pending rows d -> pending rows d'.
Proof.
  intros (Q1 & Q2 & Q3 & Q4 & Q5 & Q6) (T & L & P & W & I). unfold pending, tabled. rewrite Q1, Q2, Q3, Q4, Q5. repeat split; auto.
Qed.
Lemma on_env_inv {X} (m : M (env S A) X) d d' x : on_env S A m d = (d', Ok x) -> exists e, m (d_env d) = (e, Ok x) /\ d' = set_d_env e d.
Proof. unfold on_env. destruct (m (d_env d)) as [e r]. intros H. injection H as <- ->. eauto. Qed.
Lemma quiet_trans a b c : quiet a b -> quiet b c -> quiet a c.
Proof. unfold quiet. intuition congruence. Qed.
(** a frame is quiet *)
Lemma quiet_frame {X} (m : M (env S A) X) d d' x : frame m -> keeps (fun e => Inv (e_s e)) m -> on_env S A m d = (d', Ok x) -> quiet d d'.
Proof.
  intros F K H. apply on_env_inv in H. destruct H as (e & H & ->). specialize (F (d_env d)). specialize (K (d_env d)). rewrite H in F, K. simpl in F, K.
  destruct F as (? & ? & ? & ? & ? & ? & ? & ? & ? & ?). unfold quiet, n_accepted, dwork. simpl. repeat split; auto; congruence.
Qed.
Lemma quiet_mdw f d d' y : (forall w, st_n_accepted (w_stats (f w)) = st_n_accepted (w_stats w) /\ w_target_reached (f w) = w_target_reached w) ->
  mdw S A f d = (d', Ok y) -> quiet d d'.
Proof. intros F H. injection H as <-. destruct (F (e_w (d_env d))) as [F1 F2]. unfold quiet, n_accepted, dwork. simpl. auto 6. Qed.
Lemma quiet_mdst f d d' y : (forall s, st_n_accepted (f s) = st_n_accepted s) -> mdst S A f d = (d', Ok y) -> quiet d d'.
Proof. intros F H. injection H as <-. unfold quiet, n_accepted, dwork. simpl. auto 6. Qed.
Lemma quiet_refl d : quiet d d.
Proof. unfold quiet. auto 6. Qed.

(** accepting a successful step *)
Lemma accept_rows rows d d1 d2 d3 s y r : at_state rows d ->
  mdst S A (fun s => set_st_n_steps (st_n_steps s + 1) s) d = (d1, Ok y) ->
  on_env S A (op_step ops (d_u d) (d_l d) st) d1 = (d2, Ok Success) ->
  forall d2', quiet d2 d2' -> w_u (dwork d2') = w_u (dwork d2) -> w_l (dwork d2') = w_l (dwork d2) ->
  mdst S A (fun s => set_st_n_accepted (st_n_accepted s + 1) s) d2' = (d3, Ok y) ->
  forall d4, do_accept S A ops d3 = (d4, Ok r) -> s = Success -> pending rows d4.
Proof.
  intros I H1 H2 d2' Q Qu Ql H3 d4 H4 _.
  assert (I1 : at_state rows d1) by (refine (at_quiet _ _ _ _ I); eapply quiet_mdst; [|exact H1]; reflexivity).
  assert (A1 : acc_step ops Inv st (d_u d) (d_l d) (w_u (dwork d2)) (w_l (dwork d2))).
  { apply on_env_inv in H2. destruct H2 as (e & H2 & ->). exists (d_env d1), e. destruct I1 as (_ & _ & _ & _ & Ii). auto. }
  assert (I2 : at_state rows d2).
  { refine (at_quiet _ _ _ _ I1). eapply quiet_frame; [apply (ok_step _ _ _ OK) | apply (ok_inv_step _ _ _ OK) | exact H2]. }
  assert (Eu : d_u d2 = d_u d /\ d_l d2 = d_l d).
  { apply on_env_inv in H2. destruct H2 as (e & _ & ->). injection H1 as <-. split; reflexivity. }
  destruct Eu as [Eu El].
  apply (at_quiet _ _ _ Q) in I2. destruct Q as (Q1 & Q2 & Q3 & Q4 & Q5 & Q6).
  injection H3 as <-. unfold do_accept in H4. simpl in H4.
  match type of H4 with context [op_accept ops ?u ?l ?x] => set (e3 := x) in H4; destruct (op_accept ops u l e3) as [e4 [[[u' l'] r']|?|]] eqn:Ea; try discriminate H4 end.
  injection H4 as <- <-.
  destruct (ok_accept _ _ _ OK _ _ _ _ _ _ _ Ea) as [Wu Wl].
  pose proof (ok_accept_frame _ _ _ OK (d_u d2') (d_l d2') e3) as Fr. rewrite Ea in Fr. simpl in Fr.
  destruct Fr as (? & ? & ? & ? & ? & ? & ? & ? & ? & ?).
  pose proof (ok_inv_accept _ _ _ OK (d_u d2') (d_l d2') e3) as Ki. rewrite Ea in Ki. simpl in Ki.
  destruct I2 as (T & L & P & W & I2).
  split; [exact T|]. unfold n_accepted, dwork in *. simpl. split; [etransitivity; [exact L|]; symmetry; assumption|].
  split; [|split; [simpl in *; congruence | apply Ki; exact I2]].
  right. exists (d_u d2'), (d_l d2'). split; [exact P|]. rewrite Q2, Q3, Eu, El, Wu, Wl. simpl. rewrite Qu, Ql. exact A1.
Qed.


Lemma fixed_rows ddl i s0 rows d d' b s : at_state rows d -> fixed_body S A fin cfg ops st ddl i s0 d = (d', Ok (b, s)) ->
  if b then ended d' else exists rows', at_state rows' d'.
Proof.
  intros I H. unfold fixed_body in H.
  apply mbind_ok in H. destruct H as (d1 & [] & H1 & H).
  apply mbind_ok in H. destruct H as (dx & dy & Hx & H). apply get_inv in Hx. destruct Hx as [-> ->].
  apply mbind_ok in H. destruct H as (d2 & s1 & H2 & H).
  assert (Eu : d_u d1 = d_u d /\ d_l d1 = d_l d) by (injection H1 as <-; split; reflexivity). destruct Eu as [Eu El]. rewrite Eu, El in H2.
  destruct (failure s1) eqn:Fs.
  - apply ret_inv in H. destruct H as [-> Hb]. injection Hb as -> ->. exists rows. left.
    refine (at_quiet _ _ _ _ I). eapply quiet_trans; [eapply quiet_mdst; [|exact H1]; reflexivity|].
    eapply quiet_frame; [apply (ok_step _ _ _ OK) | apply (ok_inv_step _ _ _ OK) | exact H2].
  - apply failure_false in Fs. subst s1.
    apply mbind_ok in H. destruct H as (d3 & [] & H3 & H).
    apply mbind_ok in H. destruct H as (d4 & rd & H4 & H).
    assert (P4 : pending rows d4) by exact (accept_rows rows d d1 d2 d3 Success tt rd I H1 H2 d2 (quiet_refl _) eq_refl eq_refl H3 d4 H4 eq_refl).
    apply mbind_ok in H. destruct H as (d5 & [] & H5 & H).
    assert (Q5 : quiet d4 d5).
    { destruct (_ <? _); [|apply ret_inv in H5; destruct H5 as [-> _]; apply quiet_refl].
      apply mbind_ok in H5. destruct H5 as (d4' & nx & H5 & H6). apply lift_inv in H5. destruct H5 as [-> _].
      destruct (Rleb nx H_MIN); [apply lift_inv in H6; destruct H6; discriminate|].
      destruct (c_method cfg).
      - apply mbind_ok in H6. destruct H6 as (d4' & w & H6 & H7). injection H6 as <- <-. cbv zeta in H7.
        destruct (Rltb _ H_MIN); [apply lift_inv in H7; destruct H7; discriminate|]. eapply quiet_mdw; [|exact H7]. split; reflexivity.
      - eapply quiet_mdw; [|exact H6]. split; reflexivity. }
    apply mbind_ok in H. destruct H as (d6 & [] & H6 & H).
    assert (Q6 : quiet d5 d6) by (eapply quiet_mdw; [|exact H6]; split; reflexivity).
    apply mbind_ok in H. destruct H as (dx & dy & Hx & H). apply get_inv in Hx. destruct Hx as [-> ->].
    apply mbind_ok in H. destruct H as (dx & [] & Hx & H). apply lift_inv in Hx. destruct Hx as [-> _].
    apply mbind_ok in H. destruct H as (d7 & b7 & H7 & H).
    pose proof (pend_quiet _ _ _ (quiet_trans _ _ _ Q5 Q6) P4) as P6.
    pose proof (output_rows _ _ _ _ P6 H7) as P7. destruct b7.
    + apply ret_inv in H. destruct H as [-> Hb]. injection Hb as -> ->. exists rows. right. exact P7.
    + apply mbind_ok in H. destruct H as (dx & dy & Hx & H). apply get_inv in Hx. destruct Hx as [-> ->].
      apply mbind_ok in H. destruct H as (dx & b8 & Hx & H). apply lift_inv in Hx. destruct Hx as [-> _].
      apply ret_inv in H. destruct H as [-> Hb]. injection Hb as -> ->. destruct P7 as [r P7].
      destruct b8; [exists (rows ++ [r]); left; exact P7 | exists (rows ++ [r]); exact P7].
Qed.

Lemma auto_rows i s0 rows d d' b s : at_state rows d -> auto_body S A fin cfg ops st i s0 d = (d', Ok (b, s)) ->
  if b then ended d' else exists rows', at_state rows' d'.
Proof.
  intros I H. unfold auto_body in H.
  apply mbind_ok in H. destruct H as (d1 & [] & H1 & H).
  apply mbind_ok in H. destruct H as (dx & dy & Hx & H). apply get_inv in Hx. destruct Hx as [-> ->].
  apply mbind_ok in H. destruct H as (d2 & s1 & H2 & H).
  assert (Eu : d_u d1 = d_u d /\ d_l d1 = d_l d) by (injection H1 as <-; split; reflexivity). destruct Eu as [Eu El]. rewrite Eu, El in H2.
  assert (Q2 : quiet d d2).
  { eapply quiet_trans; [eapply quiet_mdst; [|exact H1]; reflexivity|].
    eapply quiet_frame; [apply (ok_step _ _ _ OK) | apply (ok_inv_step _ _ _ OK) | exact H2]. }
  apply mbind_ok in H. destruct H as (dx & s2 & Hx & H).
  assert (Ec : dx = d2 /\ (s2 = Success -> s1 = Success)).
  { unfold check_precise in Hx. destruct (c_precise cfg); [|apply ret_inv in Hx; destruct Hx as [-> ->]; auto].
    destruct (stop_u_comp st) as [[[j u1] mn]|]; [|apply ret_inv in Hx; destruct Hx as [-> ->]; auto].
    apply mbind_ok in Hx. destruct Hx as (dz & w & Hz & Hx). injection Hz as <- <-.
    apply mbind_ok in Hx. destruct Hx as (dz & ui & Hz & Hx). apply lift_inv in Hz. destruct Hz as [-> _].
    destruct (_ || _); apply ret_inv in Hx; destruct Hx as [-> ->]; split; auto; discriminate. }
  destruct Ec as [-> Es]. clear Hx.
  destruct (failure s2 && negb (try_again s2)) eqn:Ff.
  { apply ret_inv in H. destruct H as [-> Hb]. injection Hb as -> ->. exists rows. left. exact (at_quiet _ _ _ Q2 I). }
  apply mbind_ok in H. destruct H as (d3 & [] & H3 & H).
  assert (Q3 : quiet d2 d3 /\ w_u (dwork d3) = w_u (dwork d2) /\ w_l (dwork d3) = w_l (dwork d2)).
  { destruct (failure s2).
    - apply mbind_ok in H3. destruct H3 as (dz & [] & Hz & H3). injection Hz as <-. injection H3 as <-.
      split; [unfold quiet, n_accepted, dwork; simpl; auto 6 | split; reflexivity].
    - apply ret_inv in H3. destruct H3 as [-> _]. split; [apply quiet_refl | split; reflexivity]. }
  destruct Q3 as (Q3 & Qu & Ql).
  apply mbind_ok in H. destruct H as (dx & w3 & Hx & H). injection Hx as <- <-.
  pose proof (at_quiet _ _ _ (quiet_trans _ _ _ Q2 Q3) I) as I3.
  destruct (c_n_cont_failure_max cfg <=? _).
  { apply ret_inv in H. destruct H as [-> Hb]. injection Hb as -> ->. exists rows. left. exact I3. }
  destruct (c_n_cont_rejection_max cfg <=? _).
  { apply ret_inv in H. destruct H as [-> Hb]. injection Hb as -> ->. exists rows. left. exact I3. }
  apply mbind_ok in H. destruct H as (d4 & b4 & H4 & H).
  assert (E4 : if b4 then ended d4 else exists rows', at_state rows' d4).
  { unfold auto_finish in H4. destruct (failure s2) eqn:Fs.
    - apply mbind_ok in H4. destruct H4 as (d5 & [] & H5 & H4).
      apply mbind_ok in H4. destruct H4 as (d6 & [] & H6 & H4).
      apply mbind_ok in H4. destruct H4 as (d7 & [] & H7 & H4).
      apply mbind_ok in H4. destruct H4 as (d8 & [] & H8 & H4).
      apply ret_inv in H4. destruct H4 as [-> ->]. exists rows. refine (at_quiet _ _ _ _ I3).
      eapply quiet_trans; [eapply quiet_mdst; [|exact H5]; reflexivity|].
      eapply quiet_trans; [eapply quiet_mdw; [|exact H6]; split; reflexivity|].
      eapply quiet_trans; [eapply quiet_frame; [apply (ok_reject _ _ _ OK) | apply (ok_inv_reject _ _ _ OK) | exact H7]|].
      eapply quiet_mdw; [|exact H8]; split; reflexivity.
    - apply failure_false in Fs. rewrite (Es Fs) in H2.
      apply mbind_ok in H4. destruct H4 as (d5 & [] & H5 & H4).
      apply mbind_ok in H4. destruct H4 as (d6 & rd & H6 & H4).
      assert (P6 : pending rows d6) by exact (accept_rows rows d d1 d2 d5 Success tt rd I H1 H2 d3 Q3 Qu Ql H5 d6 H6 eq_refl).
      apply mbind_ok in H4. destruct H4 as (dx & dy & Hx & H4). apply get_inv in Hx. destruct Hx as [-> ->].
      apply mbind_ok in H4. destruct H4 as (dx & [] & Hx & H4). apply lift_inv in Hx. destruct Hx as [-> _].
      apply mbind_ok in H4. destruct H4 as (dx & w6 & Hx & H4). injection Hx as <- <-.
      pose proof P6 as (_ & _ & _ & Tg & _). unfold dwork in Tg. rewrite Tg in H4.
      apply mbind_ok in H4. destruct H4 as (d7 & he & H7 & H4).
      assert (Q7 : quiet d6 d7).
      { unfold adapt_stepsize in H7. apply mbind_ok in H7. destruct H7 as (dx & dy & Hx & H7). apply get_inv in Hx. destruct Hx as [-> ->].
        cbv zeta in H7. apply mbind_ok in H7. destruct H7 as (dx & [] & Hx & H7). apply lift_inv in Hx. destruct Hx as [-> _].
        do 4 (apply mbind_ok in H7; destruct H7 as (dx & [] & Hx & H7); injection Hx as <-).
        apply ret_inv in H7. destruct H7 as [-> _]. unfold quiet. simpl. auto 6. }
      apply mbind_ok in H4. destruct H4 as (dx & w7 & Hx & H4). injection Hx as <- <-. cbv zeta in H4.
      apply mbind_ok in H4. destruct H4 as (d8 & [] & H8 & H4).
      apply mbind_ok in H4. destruct H4 as (d9 & [] & H9 & H4).
      apply mbind_ok in H4. destruct H4 as (d10 & [] & H10 & H4).
      apply mbind_ok in H4. destruct H4 as (d11 & [] & H11 & H4).
      apply mbind_ok in H4. destruct H4 as (d12 & [] & H12 & H4).
      apply mbind_ok in H4. destruct H4 as (d13 & [] & H13 & H4).
      assert (Q13 : quiet d6 d13).
      { eapply quiet_trans; [exact Q7|].
        eapply quiet_trans; [eapply quiet_mdw; [|exact H8]; split; reflexivity|].
        eapply quiet_trans; [eapply quiet_mdst; [|exact H9]; reflexivity|].
        eapply quiet_trans; [eapply quiet_mdw; [|exact H10]; split; reflexivity|].
        eapply quiet_trans; [eapply quiet_mdw; [|exact H11]; split; reflexivity|].
        eapply quiet_trans; [eapply quiet_mdw; [|exact H12]; split; reflexivity|].
        eapply quiet_mdw; [|exact H13]; split; reflexivity. }
      apply mbind_ok in H4. destruct H4 as (d14 & b14 & H14 & H4).
      pose proof (output_rows _ _ _ _ (pend_quiet _ _ _ Q13 P6) H14) as P14. destruct b14.
      + apply ret_inv in H4. destruct H4 as [-> ->]. exists rows. right. exact P14.
      + apply mbind_ok in H4. destruct H4 as (dx & dy & Hx & H4). apply get_inv in Hx. destruct Hx as [-> ->].
        apply lift_inv in H4. destruct H4 as [-> _]. destruct P14 as [r P14].
        destruct b4; [exists (rows ++ [r]); left; exact P14 | exists (rows ++ [r]); exact P14]. }
  destruct b4.
  - apply ret_inv in H. destruct H as [-> Hb]. injection Hb as -> ->. exact E4.
  - apply mbind_ok in H. destruct H as (dx & w4 & Hx & H). injection Hx as <- <-. destruct E4 as [r4 E4].
    destruct (Rltb _ _); apply ret_inv in H; destruct H as [-> Hb]; injection Hb as -> ->; [exists r4; left; exact E4 | exists r4; exact E4].
Qed.

Lemma loop_rows (body : nat -> status -> M D (bool * status)) :
  (forall i s0 rows d d' b s, at_state rows d -> body i s0 d = (d', Ok (b, s)) -> if b then ended d' else exists rows', at_state rows' d') ->
  forall n i s0 rows d d' s, at_state rows d -> mloop n i body s0 d = (d', Ok s) -> ended d'.
Proof.
  intros HB n. induction n as [|n IH]; intros i s0 rows d d' s I H; cbn [mloop] in H.
  - apply ret_inv in H. destruct H as [-> _]. exists rows. left. exact I.
  - apply mbind_ok in H. destruct H as (d1 & [b s1] & H1 & H). specialize (HB _ _ _ _ _ _ _ I H1). destruct b.
    + apply ret_inv in H. destruct H as [-> _]. exact HB.
    + destruct HB as [rows' HB]. exact (IH _ _ _ _ _ _ HB H).
Qed.
End Runs.

(** A run that returns a status leaves, after the rows that were there before, exactly the rows of
    the initial state and of every accepted state, in order; only when the callback asked to stop at
    the final state is this state not in the table. *)
Theorem C70_run {S A} fin cfg (ops : solver_ops S A) (Inv : S -> Prop) ndim dir st ddl d d' s o rows0 :
  ops_ok ops dir Inv -> d_out d = Some o -> o_rec o = true -> holds o rows0 ->
  solve S A fin cfg ops ndim dir st ddl d = (d', Ok s) ->
  exists o' rows, d_out d' = Some o' /\ same_setup o o' /\ holds o' (rows0 ++ rows) /\
    ((trace ops Inv st (d_u d) (d_l d) rows (d_u d') (d_l d') /\ length rows = n_accepted d' + 1) \/
     (user_stop d' /\ length rows = n_accepted d' /\
      (rows = [] /\ d_u d' = d_u d /\ d_l d' = d_l d \/
       exists u l, trace ops Inv st (d_u d) (d_l d) rows u l /\ acc_step ops Inv st u l (d_u d') (d_l d')))).
Proof.
  intros OK Do Hr Ho H.
  assert (E : ended ops Inv st (d_u d) (d_l d) o rows0 d').
  { unfold solve in H. apply mbind_ok in H. destruct H as (dx & dy & Hx & H). apply get_inv in Hx. destruct Hx as [-> ->].
    destruct (negb _); [apply lift_inv in H; destruct H; discriminate|].
    apply mbind_ok in H. destruct H as (dx & [] & Hx & H). apply lift_inv in Hx. destruct Hx as [-> _].
    apply mbind_ok in H. destruct H as (d1 & [] & H1 & H).
    apply mbind_ok in H. destruct H as (dx & ini & Hx & H). apply lift_inv in Hx. destruct Hx as [-> _].
    apply mbind_ok in H. destruct H as (d2 & [] & H2 & H).
    injection H1 as <-. apply on_env_inv in H2. destruct H2 as (e2 & H2 & ->). simpl in H2.
    pose proof (ok_inv_init _ _ _ OK _ _ _ _ _ H2) as I2.
    pose proof (ok_init _ _ _ OK ini (d_u d) (d_l d) dir) as Fr.
    match type of H2 with op_initialize _ _ _ _ _ ?x = _ => specialize (Fr x) end. rewrite H2 in Fr. simpl in Fr.
    destruct Fr as (_ & _ & _ & _ & _ & F6 & _ & F8 & _ & _).
    assert (P2 : pending ops Inv st (d_u d) (d_l d) o rows0 [] (set_d_env e2 (set_d_env (set_e_w (work_reset (dl_auto ddl) (e_w (d_env d))) (d_env d)) d))).
    { split; [exists o; split; [exact Do | split; [apply same_setup_refl | rewrite app_nil_r; exact Ho]]|].
      unfold n_accepted, dwork. simpl. split; [symmetry; exact F8|]. split; [left; repeat split; reflexivity|]. split; [exact F6 | exact I2]. }
    apply mbind_ok in H. destruct H as (d3 & b3 & H3 & H).
    pose proof (output_rows ops Inv st (d_u d) (d_l d) o rows0 Hr _ _ _ _ P2 H3) as P3. destruct b3.
    - apply ret_inv in H. destruct H as [-> _]. exists []. right. exact P3.
    - destruct P3 as [r P3]. destruct (negb _).
      + eapply (loop_rows ops Inv st _ _ o rows0); [|exact P3 | exact H].
        intros. eapply (fixed_rows fin cfg ops dir Inv OK st _ _ o rows0 Hr); eassumption.
      + eapply (loop_rows ops Inv st _ _ o rows0); [|exact P3 | exact H].
        intros. eapply (auto_rows fin cfg ops dir Inv OK st _ _ o rows0 Hr); eassumption. }
  destruct E as [rows [E|[E U]]].
  - destruct E as ((o' & E1 & E2 & E3) & L & T & _). exists o', rows. split; [exact E1|]. split; [exact E2|]. split; [exact E3|]. left. auto.
  - destruct E as ((o' & E1 & E2 & E3) & L & T & _). exists o', rows. split; [exact E1|]. split; [exact E2|]. split; [exact E3|]. right. auto.
Qed.

(* ------------------------------------------------------------------ *)
(** * Examples and findings *)

(** two calls; the second one asks to stop *)
Definition ox_out : output nat :=
  set_callback (fun _ _ l _ a => (a + 1, Ok (Rltb 5 l))) (set_recording true [1] [] (output_new nat)).
Definition ox_work : work := work_new (ex_cfg 1 10 false) 2.
Example C70_example : exists o' a' , exec_all [(ox_work, [1; 2]%R, 3%R); (ox_work, [4; 5]%R, 6%R)] ox_out 0 = (o', a', [Ok false; Ok true]) /\
  configured ox_out /\ o_rec ox_out = true /\ a' = 2 /\ get_u_values o' 1 = Ok [2%R] /\ o_l o' = [3%R].
Proof.
  do 2 eexists. split; [rprim|]. split; [repeat constructor|]. repeat split.
Qed.

(** FINDING: set_recording called again with the same component (for instance between two runs) clears
    this column only: lambda and the stepsizes keep the rows of the first run. *)
Theorem C70_set_recording_refuted :
  exists (o : output nat) rows, holds o rows /\ get_u_values (set_recording true [0] [] o) 0 = Ok [] /\
    o_l (set_recording true [0] [] o) = [7%R].
Proof.
  exists (mkOut true None None [] [(0, [2%R])] [7%R] [1%R] [] []), [mkRow [2%R] 7 1 [] 0].
  split; [|split; reflexivity]. constructor; simpl; auto.
  - intros [|m] col H; [|discriminate H]. injection H as <-. split; [reflexivity|]. intros r [<-|[]]. simpl. lia.
  - intros m col H. discriminate H.
Qed.
Print Assumptions C70_execute.
Print Assumptions C70_history.
Print Assumptions C70_configured.
Print Assumptions C70_run.
Print Assumptions C70_set_recording_refuted.
