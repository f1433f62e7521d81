(** C59 for the explicit Runge-Kutta methods: a run does not depend on what the solver object did before. *)
From Coq Require Import Lra.
From Verif Require Import Erk_Model Ode_Base_Thm Ode_Drv_Thm Ode_Sim_Thm Erk_Tab_Thm Erk_Thm.
Local Open Scope nat_scope.

Lemma rrel_for_n {S1 S2} (Q : nat -> S1 -> S2 -> Prop) f g n : forall lo a b, Q lo a b ->
  (forall i a b, lo <= i < lo + n -> Q i a b -> rrel (Q (S i)) (f i a) (g i b)) -> rrel (Q (lo + n)) (for_n n lo f a) (for_n n lo g b).
Proof.
  induction n as [|n IH]; intros lo a b H0 HS; cbn [for_n].
  - rewrite Nat.add_0_r. now constructor.
  - eapply rrel_bind; [apply HS; [lia|exact H0]|]. intros a' b' H1. replace (lo + S n) with (S lo + n) by lia.
    apply IH; [exact H1|]. intros i a2 b2 Hi. apply HS. lia.
Qed.
Lemma rrel_for_range {S1 S2} (Q : nat -> S1 -> S2 -> Prop) f g lo hi a b : lo <= hi -> Q lo a b ->
  (forall i a b, lo <= i < hi -> Q i a b -> rrel (Q (S i)) (f i a) (g i b)) -> rrel (Q hi) (for_range lo hi f a) (for_range lo hi g b).
Proof.
  intros L H0 HS. unfold for_range. replace hi with (lo + (hi - lo)) at 1 by lia. apply rrel_for_n; [exact H0|]. intros i a2 b2 Hi. apply HS. lia.
Qed.

(** two solver objects with the same configuration: they differ at most in what earlier calls left in
    their work arrays (and possibly in the dense output data) *)
Record same_config (s1 s2 : erk) : Prop := mkSame {
  sc_params : e_params s1 = e_params s2; sc_info : e_info s1 = e_info s2;
  sc_aa : e_aa s1 = e_aa s2; sc_bb : e_bb s1 = e_bb s2; sc_cc : e_cc s1 = e_cc s2; sc_ee : e_ee s1 = e_ee s2;
  sc_n : e_nstage s1 = e_nstage s2; sc_lund : e_lund s1 = e_lund s2; sc_dmin : e_dmin s1 = e_dmin s2; sc_dmax : e_dmax s1 = e_dmax s2 }.

Section Hist.
Variable ndim : nat.
Variable f : R -> vec -> res vec.
Variable powf : R -> R -> R.
Hypothesis FD : keeps_dim ndim f.
Local Notation always := (fun (_ : erk) (_ : workspace) => true).
Local Notation wf := (wf ndim).

Definition later_v (v1 v2 : list vec) : Prop := forall j, 1 <= j -> nth j v1 [] = nth j v2 [].
Definition before (s1 s2 : erk) : Prop := same_config s1 s2 /\ e_dense s1 = e_dense s2 /\ wf s1 /\ wf s2.
Definition after (s1 s2 : erk) : Prop := before s1 s2 /\ e_k s1 = e_k s2 /\ e_w s1 = e_w s2 /\ later_v (e_v s1) (e_v s2).

Lemma list_ext (l1 l2 : list vec) n : length l1 = n -> length l2 = n -> (forall j, j < n -> nth j l1 [] = nth j l2 []) -> l1 = l2.
Proof. intros L1 L2 H. apply (nth_ext _ _ [] []); [exact (eq_trans L1 (eq_sym L2))|]. intros j Hj. apply H. unfold vec in *. lia. Qed.

Lemma step_same s1 s2 w x y h : before s1 s2 -> length y = ndim ->
  rrel (fun p q => snd p = snd q /\ w_follows_reject (snd p) = w_follows_reject w /\ after (fst p) (fst q))
    (erk_step_gen ndim f always s1 w x y h) (erk_step_gen ndim f always s2 w x y h).
Proof.
  intros (SC & HD & (A & b & c & ee & WF) & (A2 & b2 & c2 & ee2 & WF2)) Ly.
  pose proof (wf_tab _ _ _ _ _ _ WF) as T1. pose proof (wf_tab _ _ _ _ _ _ WF2) as T2. rewrite <- (sc_params _ _ SC), T1 in T2. injection T2 as <- <- <-.
  pose proof (wf_err _ _ _ _ _ _ WF) as R1. pose proof (wf_err _ _ _ _ _ _ WF2) as R2. rewrite <- (sc_params _ _ SC), R1 in R2. injection R2 as <-.
  destruct (tableau_facts _ _ _ _ T1) as (TF1 & TF2 & TF3 & TF4 & TF5).
  unfold erk_step_gen. cbv zeta. assert (NK : needs_k0 s1 w = needs_k0 s2 w) by (unfold needs_k0; now rewrite (sc_info _ _ SC)). rewrite <- NK. clear NK.
  set (w0 := if needs_k0 s1 w then add_n_function 1 w else w). assert (FW : w_follows_reject w0 = w_follows_reject w) by (unfold w0; destruct (needs_k0 s1 w); reflexivity).
  clearbody w0. destruct (f x y) as [k0|e|] eqn:Ek; cbn [bind]; [|constructor|constructor].
  pose proof (FD _ _ _ Ly Ek) as Lk0. pose proof (wf_k _ _ _ _ _ _ WF) as K1. pose proof (wf_k _ _ _ _ _ _ WF2) as K2.
  rewrite !vset_ok by (destruct K1, K2; lia). cbn [bind].
  rewrite (wf_n _ _ _ _ _ _ WF), (wf_n _ _ _ _ _ _ WF2).
  apply rrel_bind with (P := fun (p q : list vec * list vec * workspace) => snd p = snd q /\ w_follows_reject (snd p) = w_follows_reject w /\
     fst (fst p) = fst (fst q) /\ later_v (snd (fst p)) (snd (fst q)) /\
     vecs_ok ndim (length b) (fst (fst p)) /\ vecs_ok ndim (length b) (snd (fst p)) /\ vecs_ok ndim (length b) (snd (fst q))).
  - eapply rrel_imp; [apply (rrel_for_range (fun i (p q : list vec * list vec * workspace) => snd p = snd q /\ w_follows_reject (snd p) = w_follows_reject w /\
      (forall j, j < i -> nth j (fst (fst p)) [] = nth j (fst (fst q)) []) /\ (forall j, 1 <= j < i -> nth j (snd (fst p)) [] = nth j (snd (fst q)) []) /\
      vecs_ok ndim (length b) (fst (fst p)) /\ vecs_ok ndim (length b) (fst (fst q)) /\ vecs_ok ndim (length b) (snd (fst p)) /\ vecs_ok ndim (length b) (snd (fst q)))); [lia| |]|].
    + cbn [fst snd]. splits; auto; try (intros; lia); try (apply upd_vecs; auto); try apply (wf_v _ _ _ _ _ _ WF); try apply (wf_v _ _ _ _ _ _ WF2).
      intros j Hj. destruct j as [|j]; [|lia]. destruct K1, K2. unfold vec in *. rewrite !nth_upd_eq by lia. reflexivity.
    + intros i [[k1 v1] wa] [[k2 v2] wb] Hi (E1 & E2 & E3 & E4 & E5 & E6 & E7 & E8). cbn [fst snd] in *. subst wb.
      pose proof (stage_eq ndim f s1 A b c ee WF x y h Ly i k1 v1 wa Hi E5 E7) as Q1. pose proof (stage_eq ndim f s2 A b c ee WF2 x y h Ly i k2 v2 wa Hi E6 E8) as Q2.
      unfold vec in *. rewrite Q1, Q2.
      rewrite <- (stage_point_ext (Rmat A) y h k1 k2 i E3).
      apply rrel_bind_same. intros ki Eki. constructor. cbn [fst snd].
      assert (Lki : length ki = ndim) by (eapply FD; [|exact Eki]; rewrite stage_point_length; exact Ly).
      splits; auto; try (apply upd_vecs; auto; rewrite stage_point_length; exact Ly).
      * intros j Hj. destruct E5 as (E5 & _), E6 as (E6 & _). unfold vec in *. rewrite !nth_upd by lia. destruct (Nat.eqb_spec j i); [reflexivity|]. apply E3. lia.
      * intros j Hj. destruct E7 as (E7 & _), E8 as (E8 & _). unfold vec in *. rewrite !nth_upd by lia. destruct (Nat.eqb_spec j i); [reflexivity|]. apply E4. lia.
    + intros [[k1 v1] wa] [[k2 v2] wb] (E1 & E2 & E3 & E4 & E5 & E6 & E7 & E8). cbn [fst snd] in *. splits; auto.
      * apply (list_ext _ _ (length b)); [exact (proj1 E5)|exact (proj1 E6)|exact E3].
      * intros j Hj. destruct (Nat.lt_ge_cases j (length b)) as [L|L]; [apply E4; lia|]. rewrite !nth_overflow by (destruct E7, E8; lia). reflexivity.
  - intros [[k1 v1] wa] [[k2 v2] wb] (E1 & E2 & E3 & E4 & E5 & E6 & E7). cbn [fst snd] in *. subst wb k2.
    rewrite (finish_eq ndim _ _ _ _ _ _ _ _ (wf_set_kv _ _ _ _ _ _ _ _ WF E5 E6) Ly), (finish_eq ndim _ _ _ _ _ _ _ _ (wf_set_kv _ _ _ _ _ _ _ _ WF2 E5 E7) Ly).
    constructor. cbn [fst snd e_k set_e_v set_e_k]. splits.
    + destruct ee; [|reflexivity]. f_equal. unfold local_error. cbn [e_params set_e_v set_e_k]. now rewrite (sc_params _ _ SC).
    + destruct ee; exact E2.
    + unfold after, before. cbn. assert (Ln : length (new_solution (Rrow b) y h k1) = ndim) by (rewrite new_solution_length; exact Ly). splits; auto.
      * destruct SC. constructor; assumption.
      * exists A, b, c, ee. apply wf_set_w; [|exact Ln]. now apply wf_set_kv.
      * exists A, b, c, ee. apply wf_set_w; [|exact Ln]. now apply wf_set_kv.
Qed.

Lemma enable_same s1 s2 : same_config s1 s2 -> wf s1 -> wf s2 -> rrel before (erk_enable_dense ndim s1) (erk_enable_dense ndim s2).
Proof.
  intros SC (A & b & c & ee & WF) (A2 & b2 & c2 & ee2 & WF2). unfold erk_enable_dense. rewrite <- (sc_params _ _ SC). apply rrel_bind_same. intros d _. constructor.
  unfold before. cbn. splits; auto; [destruct SC; constructor; assumption|exists A, b, c, ee; now apply wf_set_dense|exists A2, b2, c2, ee2; now apply wf_set_dense].
Qed.

Lemma accept_same s1 s2 w x y h : after s1 s2 -> length y = ndim ->
  rrel (fun p q => let '(s1', w1, x1, y1) := p in let '(s2', w2, x2, y2) := q in
          w1 = w2 /\ x1 = x2 /\ y1 = y2 /\ w_follows_reject w1 = w_follows_reject w /\ before s1' s2' /\ length y1 = ndim)
    (erk_accept ndim f powf s1 w x y h) (erk_accept ndim f powf s2 w x y h).
Proof.
  intros AF Ly. pose proof AF as ((SC & HD & (A & b & c & ee & WF) & (A2 & b2 & c2 & ee2 & WF2)) & HK & HW & HV).
  assert (GOAL : rrel (fun p q => let '(s1', w1, x1, y1) := p in let '(s2', w2, x2, y2) := q in
          w1 = w2 /\ x1 = x2 /\ y1 = y2 /\ same_config s1' s2' /\ e_dense s1' = e_dense s2' /\ y1 = e_w s1)
    (erk_accept ndim f powf s1 w x y h) (erk_accept ndim f powf s2 w x y h)).
  { unfold erk_accept. rewrite <- HD, <- HK, <- HW.
    apply rrel_bind with (P := fun p q => snd p = snd q /\ exists d, fst p = set_e_dense d s1 /\ fst q = set_e_dense d s2).
    { destruct (e_dense s1) as [o|] eqn:Eo.
      - destruct (dense_update ndim f x y h (e_w s1) (e_k s1) o) as [[o' n]|e|]; cbn [bind]; constructor. cbn. split; [reflexivity|]. now exists (Some o').
      - constructor. cbn. split; [reflexivity|]. exists None. split; [destruct s1; cbn in *; now subst|destruct s2; cbn in *; now subst]. }
    intros [sa wa] [sb wb] (E1 & d & Ea & Eb). cbn [fst snd] in *. subst wb sa sb. cbv zeta. cbn [e_w e_info e_nstage e_k set_e_dense]. rewrite <- HW, <- HK, <- (sc_info _ _ SC), <- (sc_n _ _ SC).
    apply rrel_bind_same. intros y2 Ey. unfold vcopy in Ey. destruct (_ =? _); [|discriminate]. injection Ey as <-.
    apply rrel_bind with (P := fun p q => exists k, p = set_e_k k (set_e_dense d s1) /\ q = set_e_k k (set_e_dense d s2)).
    { destruct (i_fsal (e_info s1)).
      - repeat (apply rrel_bind_same; intros ? _). constructor. eexists. split; reflexivity.
      - constructor. exists (e_k s1). split; [destruct s1; reflexivity|rewrite HK; destruct s2; reflexivity]. }
    intros sa sb (k & -> & ->). cbn [e_info set_e_k set_e_dense]. rewrite <- (sc_info _ _ SC). destruct (negb _).
    - constructor. cbn. splits; auto. destruct SC. constructor; assumption.
    - assert (HN : erk_new_h powf (set_e_k k (set_e_dense d s1)) wa h = erk_new_h powf (set_e_k k (set_e_dense d s2)) wa h).
      { unfold erk_new_h. cbn. now rewrite (sc_params _ _ SC), (sc_lund _ _ SC), (sc_dmin _ _ SC), (sc_dmax _ _ SC). }
      rewrite <- HN. pose proof (wf_tab _ _ _ _ _ _ WF) as T1. pose proof (wf_tab _ _ _ _ _ _ WF2) as T2. rewrite <- (sc_params _ _ SC), T1 in T2. injection T2 as <- <- <-.
      set (w2 := set_w_h_new _ wa). clearbody w2.
      assert (ST : rrel (fun p q => snd p = snd q /\ (exists k', fst p = set_e_k k' (set_e_dense d s1) /\ fst q = set_e_k k' (set_e_dense d s2)))
         (erk_stiffness ndim f (set_e_k k (set_e_dense d s1)) w2 (x + h) (e_w s1) h) (erk_stiffness ndim f (set_e_k k (set_e_dense d s2)) w2 (x + h) (e_w s1) h)).
      { assert (V1 : vecs_ok ndim (e_nstage s1) (e_v s1)) by (rewrite (wf_n _ _ _ _ _ _ WF); apply (wf_v _ _ _ _ _ _ WF)).
        assert (V2 : vecs_ok ndim (e_nstage s1) (e_v s2)) by (rewrite (wf_n _ _ _ _ _ _ WF); apply (wf_v _ _ _ _ _ _ WF2)).
        clear -SC HV V1 V2.
        assert (GV : forall j, 1 <= j -> vget (e_v s1) j = vget (e_v s2) j).
        { intros j Hj. destruct V1 as (V1 & _), V2 as (V2 & _). destruct (Nat.lt_ge_cases j (e_nstage s1)) as [L|L].
          - rewrite !(vget_ok (A := vec) _ _ []) by (unfold vec in *; lia). now rewrite HV.
          - rewrite !vget_panic by (unfold vec in *; lia). reflexivity. }
        unfold erk_stiffness. cbn [e_params e_k e_v set_e_k set_e_dense]. rewrite <- (sc_params _ _ SC).
        destruct (ps_enabled _); [|constructor; cbn; split; [reflexivity|exists k; auto]].
        destruct (p_method (e_params s1)); try (constructor; cbn; split; [reflexivity|exists k; auto]).
        - rewrite <- !GV by lia. repeat (apply rrel_bind_same; intros ? _). constructor. cbn. split; [reflexivity|exists k; auto].
        - cbv zeta. apply rrel_bind_same. intros kn _. apply rrel_bind_same. intros k' _.
          cbn [e_k e_v e_params set_e_k set_e_dense]. rewrite <- !GV by lia. repeat (apply rrel_bind_same; intros ? _). constructor. cbn. split; [reflexivity|].
          exists k'. split; reflexivity. }
      eapply rrel_bind; [exact ST|]. intros [sa wc] [sb wd] (E1 & k' & Ea & Eb). cbn [fst snd] in *. subst wd sa sb. constructor. cbn. splits; auto. destruct SC. constructor; assumption. }
  destruct (erk_accept ndim f powf s1 w x y h) as [[[[sa wa] xa] ya]|e|] eqn:Ea; destruct (erk_accept ndim f powf s2 w x y h) as [[[[sb wb] xb] yb]|e2|] eqn:Eb; inversion GOAL; subst; try (constructor; fail).
  destruct H1 as (-> & -> & -> & G1 & G2 & ->). constructor.
  destruct (accept_shape ndim f powf FD _ _ _ _ _ _ _ _ _ _ _ _ _ WF Ly Ea) as (B1 & _ & _ & B4 & _).
  destruct (accept_shape ndim f powf FD _ _ _ _ _ _ _ _ _ _ _ _ _ WF2 Ly Eb) as (B2 & _).
  splits; auto; [|exact (wf_w _ _ _ _ _ _ WF)]. unfold before. splits; auto; [now exists A, b, c, ee|now exists A2, b2, c2, ee2].
Qed.

(** Two solver objects with the same parameters give the same run on the same call: outcome, final x and y, output,
    statistics, accepted and rejected steps -- whatever was computed with them before.  Dense output must be requested in the
    call, or be in the same state in both *)
Theorem C59_erk : forall all_finite P s1 s2 w1 w2 y0 x0 x1 h_equal oo, wf s1 -> wf s2 -> same_config s1 s2 ->
  dense_requested oo = true \/ e_dense s1 = e_dense s2 ->
  same_run same_config
    (solve (erk_ops ndim f powf) all_finite P ndim s1 w1 y0 x0 x1 h_equal oo)
    (solve (erk_ops ndim f powf) all_finite P ndim s2 w2 y0 x0 x1 h_equal oo).
Proof.
  intros all_finite P s1 s2 w1 w2 y0 x0 x1 h_equal oo W1 W2 SC HD.
  rewrite !(C50_reuse ndim f powf FD) by assumption.
  set (I0 := fun (s1 s2 : erk) (w : workspace) (x : R) (y : vec) => before s1 s2 /\ length y = ndim).
  set (I1 := fun (s1 s2 : erk) (w : workspace) (x : R) (y : vec) (h : R) => after s1 s2 /\ length y = ndim).
  assert (SIM : simulation _ _ (erk_ops_gen ndim f powf always) (erk_ops_gen ndim f powf always) I0 I1).
  { split.
    - intros a b w x y h (HB & Ly). cbn [m_step erk_ops_gen]. eapply rrel_imp; [apply step_same; assumption|]. intros p q (E1 & E2 & E3). splits; auto. split; auto.
    - intros a b w x y h (HA & Ly). cbn [m_accept erk_ops_gen]. eapply rrel_imp; [apply accept_same; assumption|].
      intros [[[a' wa] xa] ya] [[[b' wb] xb] yb] (E1 & E2 & E3 & E4 & E5 & E6). splits; auto. intros w' _ _. split; auto.
    - intros a b w x y h w' ((HB & _) & Ly) _ _. split; auto.
    - intros a b w x y h w' ((HB & HK & HW & HV) & Ly) _ _. cbn [m_reject erk_ops_gen]. unfold erk_reject. cbn [fst snd]. destruct HB as (HC & HB).
      rewrite (sc_params _ _ HC), (sc_lund _ _ HC), (sc_dmin _ _ HC). split; [reflexivity|]. split; [split; auto|exact Ly].
    - intros a b w x y ((_ & HE & _) & _) _ xo xx yy hh. cbn [m_dense erk_ops_gen]. unfold erk_dense_output. now rewrite HE. }
  eapply rrel_imp; [apply (solve_same _ _ _ _ all_finite P _ _ SIM)|].
  - intros Ly ND w _. split; [|exact Ly]. destruct HD as [HD|HD]; [congruence|]. unfold before. auto.
  - intros Ly _. eapply rrel_imp; [apply enable_same; assumption|]. intros a b HB w _. split; auto.
  - intros p q (A1 & A2 & (w & x & y & ((A3 & _) & _))). auto.
Qed.

(** the constructor puts no restriction on this: two objects made with the same parameters have the same configuration *)
Theorem C59_fresh : forall p s A b c ee, erk_new p ndim = Ok s -> forall s2, erk_wf ndim s2 A b c ee -> e_params s2 = p ->
  e_lund s2 = e_lund s -> e_dmin s2 = e_dmin s -> e_dmax s2 = e_dmax s -> wf s /\ wf s2 /\ same_config s s2.
Proof.
  intros p s A b c ee EN s2 WF2 HP H1 H2 H3. destruct (C50_new ndim p s EN) as (A' & b' & c' & ee' & WF & Ep & _).
  pose proof (wf_tab _ _ _ _ _ _ WF) as T1. pose proof (wf_tab _ _ _ _ _ _ WF2) as T2. rewrite Ep in T1. rewrite HP, T1 in T2. injection T2 as <- <- <-.
  pose proof (wf_err _ _ _ _ _ _ WF) as R1. pose proof (wf_err _ _ _ _ _ _ WF2) as R2. rewrite Ep in R1. rewrite HP, R1 in R2. injection R2 as <-.
  splits; [now exists A', b', c', ee'|now exists A', b', c', ee'|]. destruct WF, WF2. constructor; congruence.
Qed.

(** Dense output stays enabled after the call that requested it.  Later calls give the same solution, but every accepted
    step of DoPri8 then costs three more evaluations of the user's function *)
Theorem C59_dense_stays_refuted : forall s sd A b c ee w x y h s1 w1 x1 y1 s2 w2 x2 y2,
  erk_wf ndim s A b c ee -> length y = ndim -> p_method (e_params s) = DoPri8 -> e_dense s = None -> erk_enable_dense ndim s = Ok sd ->
  erk_accept ndim f powf s w x y h = Ok (s1, w1, x1, y1) -> erk_accept ndim f powf sd w x y h = Ok (s2, w2, x2, y2) ->
  x1 = x2 /\ y1 = y2 /\ n_function (w_stats w2) = n_function (w_stats w1) + 3 /\ e_dense s1 = None /\ e_dense s2 <> None.
Proof.
  intros s sd A b c ee w x y h s1 w1 x1 y1 s2 w2 x2 y2 WF Ly HM HD ED E1 E2.
  unfold erk_enable_dense in ED. rewrite HM in ED. injection ED as <-.
  assert (TAIL : forall s w, exists d, forall s' w' x' y', (let x0 := (x + h)%R in
       y0 <- vcopy y (e_w s);; s0 <- (if i_fsal (e_info s) then i <- usub (e_nstage s) 1 ;; kl <- vget (e_k s) i ;; k0 <- vget (e_k s) 0 ;;
          k0 <- for_range 0 ndim (fun m k0 => a <- vget kl m ;; vset k0 m a) k0 ;; k <- vset (e_k s) 0 k0 ;; Ok (set_e_k k s) else Ok s) ;;
       (if negb (i_embedded (e_info s0)) then Ok (s0, w, x0, y0) else
         let w0 := set_w_h_new (erk_new_h powf s0 w h) w in ' (s3, w3) <- erk_stiffness ndim f s0 w0 x0 y0 h ;; Ok (s3, w3, x0, y0))) = Ok (s', w', x', y') ->
       x' = (x + h)%R /\ y' = e_w s /\ n_function (w_stats w') = n_function (w_stats w) + d /\ e_dense s' = e_dense s /\
       d = (if i_embedded (e_info s) && ps_enabled (p_stiff (e_params s)) && method_eqb (p_method (e_params s)) DoPri8 then 1 else 0)).
  { clear. intros s w. exists (if i_embedded (e_info s) && ps_enabled (p_stiff (e_params s)) && method_eqb (p_method (e_params s)) DoPri8 then 1 else 0). intros s' w' x' y' E. cbv zeta in E. apply bind_ok in E as (y2 & Ey & E). unfold vcopy in Ey. destruct (_ =? _); [|discriminate]. injection Ey as <-.
    apply bind_ok in E as (s2 & E2 & E).
    assert (S2 : exists k, s2 = set_e_k k s).
    { destruct (i_fsal (e_info s)); [|injection E2 as <-; exists (e_k s); destruct s; reflexivity].
      apply bind_ok in E2 as (? & _ & E2). apply bind_ok in E2 as (? & _ & E2). apply bind_ok in E2 as (? & _ & E2). apply bind_ok in E2 as (? & _ & E2). apply bind_ok in E2 as (k & _ & E2). injection E2 as <-. now exists k. }
    destruct S2 as (k & ->). cbn [e_info set_e_k] in E. destruct (i_embedded (e_info s)); cbn [negb andb] in *.
    - apply bind_ok in E as ([s3 w3] & E3 & E). injection E as <- <- <- <-. unfold erk_stiffness in E3. cbn [e_params e_k e_v set_e_k] in E3.
      destruct (ps_enabled (p_stiff (e_params s))); cbn [andb]; [|injection E3 as <- <-; splits; auto; cbn; lia].
      assert (DET : forall w4 xx w5 st, detect_stiffness w4 xx st = Ok w5 -> n_function (w_stats w5) = n_function (w_stats w4)).
      { clear. intros w4 xx w5 st H. unfold detect_stiffness in H. cbv zeta in H.
        repeat match type of H with (if ?c then _ else _) = _ => destruct c end; try discriminate; injection H as <-; reflexivity. }
      destruct (p_method (e_params s)); cbn [method_eqb andb]; try (injection E3 as <- <-; splits; auto; cbn; lia).
      + repeat (apply bind_ok in E3 as (? & ? & E3)). injection E3 as <- <-. splits; auto. match goal with H : detect_stiffness _ _ _ = Ok _ |- _ => rewrite (DET _ _ _ _ H) end. destruct (Rltb _ _); cbn; lia.
      + cbv zeta in E3. repeat (apply bind_ok in E3 as (? & ? & E3)). injection E3 as <- <-. splits; auto. match goal with H : detect_stiffness _ _ _ = Ok _ |- _ => rewrite (DET _ _ _ _ H) end. destruct (Rltb _ _); cbn; lia.
    - injection E as <- <- <- <-. splits; auto; cbn; lia. }
  unfold erk_accept in E1, E2. rewrite HD in E1. cbn [bind] in E1.
  destruct (TAIL s w) as (d1 & T1). specialize (T1 _ _ _ _ E1) as (-> & -> & N1 & D1 & V1).
  cbn [e_dense set_e_dense] in E2. apply bind_ok in E2 as ([sx wx] & EX & E2). apply bind_ok in EX as ([o n] & EU & EX). injection EX as <- <-.
  assert (NN : n = 3).
  { unfold dense_update in EU. cbn [de_method] in EU. cbn [e_w e_k set_e_dense] in EU. clear -EU. revert EU. generalize (Rmat DORMAND_PRINCE_8_AD), (Rrow DORMAND_PRINCE_8_CD), (Rmat DORMAND_PRINCE_8_D). intros ad cd dd EU.
    repeat (apply bind_ok in EU as (? & _ & EU)). cbv zeta in EU. repeat (apply bind_ok in EU as (? & _ & EU)). injection EU as _ <-. reflexivity. }
  subst n. match type of E2 with context [set_e_dense ?a (set_e_dense ?b s)] => change (set_e_dense a (set_e_dense b s)) with (set_e_dense a s) in E2 end.
  destruct (TAIL (set_e_dense (Some o) s) (add_n_function 3 w)) as (d2 & T2). specialize (T2 _ _ _ _ E2) as (-> & -> & N2 & D2 & V2).
  cbn [e_w e_info e_params e_dense set_e_dense] in *. splits; auto.
  - rewrite N2, N1, V1, V2. cbn [w_stats add_n_function on_stats set_w_stats n_function set_n_function]. lia.
  - congruence.
  - rewrite D2. discriminate.
Qed.
End Hist.

(** a used object: any step with a fresh one leaves an object with the same configuration *)
Example C59_ex : forall ndim f p s w x y h s' w', keeps_dim ndim f -> erk_new p ndim = Ok s -> length y = ndim ->
  (needs_k0 s w = false -> f x y = Ok (nth 0 (e_k s) [])) -> erk_step ndim f s w x y h = Ok (s', w') -> wf ndim s' /\ same_config s s' /\ e_dense s = e_dense s'.
Proof.
  intros ndim f p s w x y h s' w' FD EN Ly HK ES. destruct (C50_new ndim p s EN) as (A & b & c & ee & WF & Ep & _).
  destruct (step_shape ndim f FD _ _ _ _ _ _ _ _ _ _ _ _ WF Ly HK ES) as (k & v & _ & VK & VV & _ & -> & _).
  splits; [|constructor; reflexivity|reflexivity]. exists A, b, c, ee. apply wf_set_w; [|rewrite new_solution_length; exact Ly]. now apply wf_set_kv.
Qed.

Print Assumptions C59_erk.
Print Assumptions C59_dense_stays_refuted.
