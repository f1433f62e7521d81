(** C57 (stiffness detection) and C58 (parameter validation). *)
From Verif Require Import Ode_Base_Model.
Local Open Scope nat_scope.

(** * C58 *)

Definition newton_ok (p : params_newton) : Prop := 1 <= n_iteration_max p.
Definition step_ok (p : params_step) : Prop :=
  (0.001 <= m_min p <= 0.5)%R /\ (m_min p < m_max p)%R /\ (0.01 <= m_max p <= 20)%R /\ (0.1 <= m_safety p <= 1)%R /\
  (0 <= m_first_reject p)%R /\ (1e-8 <= h_ini p)%R /\ 1 <= n_step_max p /\ (1e-8 <= rel_error_prev_min p)%R.
Definition radau5_ok (p : params_radau5) : Prop :=
  (1e-7 <= theta_max p)%R /\ (0.5 <= c1h p <= 1.5)%R /\ (c1h p < c2h p)%R /\ (1 <= c2h p <= 2)%R.
Definition erk_ok (p : params_erk) : Prop := (0 <= lund_beta p <= 0.1)%R /\ (0 <= lund_m p <= 1)%R.

Ltac rb :=
  repeat match goal with
  | |- context [Rltb ?a ?b] => destruct (Rltb_spec a b)
  | |- context [Rleb ?a ?b] => destruct (Rleb_spec a b)
  | |- context [?a <? ?b] => destruct (Nat.ltb_spec a b)
  end.

Ltac iffres := split; intros HH; try discriminate HH; try reflexivity; repeat match goal with H : _ /\ _ |- _ => destruct H end;
  try (exfalso; lra); try (exfalso; lia); splits; try lra; try lia.

Lemma newton_validate_iff p : newton_validate p = Ok tt <-> newton_ok p.
Proof. unfold newton_validate, newton_ok. rb; cbn; iffres. Qed.
Lemma step_validate_iff p : step_validate p = Ok tt <-> step_ok p.
Proof. unfold step_validate, step_ok. rb; cbn [orb]; iffres. Qed.
Lemma radau5_validate_iff p : radau5_validate p = Ok tt <-> radau5_ok p.
Proof. unfold radau5_validate, radau5_ok. rb; cbn [orb]; iffres. Qed.
Lemma erk_validate_iff p : erk_validate p = Ok tt <-> erk_ok p.
Proof. unfold erk_validate, erk_ok. rb; cbn [orb]; iffres. Qed.

(** validation accepts exactly the parameter sets within the documented limits (except that
    m_min = 0.5 is accepted), and never panics *)
Theorem C58_validate_iff p :
  (params_validate p = Ok tt <-> newton_ok (p_newton p) /\ step_ok (p_step p) /\ radau5_ok (p_radau5 p) /\ erk_ok (p_erk p)) /\
  params_validate p <> Panic.
Proof.
  rewrite <- newton_validate_iff, <- step_validate_iff, <- radau5_validate_iff, <- erk_validate_iff. unfold params_validate.
  assert (P : newton_validate (p_newton p) <> Panic /\ step_validate (p_step p) <> Panic /\ radau5_validate (p_radau5 p) <> Panic /\ erk_validate (p_erk p) <> Panic).
  { unfold newton_validate, step_validate, radau5_validate, erk_validate.
    splits; repeat match goal with |- context [if ?c then _ else _] => destruct c end; discriminate. }
  destruct (newton_validate (p_newton p)) as [[]|e|], (step_validate (p_step p)) as [[]|e2|], (radau5_validate (p_radau5 p)) as [[]|e3|], (erk_validate (p_erk p)) as [[]|e4|];
    cbn; split; try (split; [intros H|intros (H1 & H2 & H3 & H4)]); try discriminate; try tauto; auto.
Qed.

(** the documentation says m_min < 0.5; 0.5 itself is accepted *)
Theorem C58_m_min_boundary_refuted : exists p, m_min p = 0.5%R /\ step_validate p = Ok tt.
Proof.
  exists (mkStep 0.5 5 0.9 0.1 0.01 10 0.01). split; [reflexivity|]. apply step_validate_iff. unfold step_ok; cbn [m_min m_max m_safety m_first_reject h_ini n_step_max rel_error_prev_min].
  splits; try lra; lia.
Qed.

Lemma eps_pos : (0 < EPSILON)%R.
Proof. unfold EPSILON. apply Rinv_0_lt_compat. apply pow_lt. lra. Qed.
Lemma eps_small : (EPSILON < 1e-15)%R.
Proof. unfold EPSILON. lra. Qed.

Section Tol.
Variable powf : R -> R -> R.
Hypothesis powf_pos : forall x p, (0 < x)%R -> (0 < powf x p)%R.

(** the tolerances are accepted iff both exceed 10 EPSILON; they are then all positive *)
Theorem C58_tolerances radau5 a r :
  ((10 * EPSILON < a)%R /\ (10 * EPSILON < r)%R ->
     exists a' r' n, calc_tolerances powf radau5 a r = Ok (a', r', n) /\ (0 < a' /\ 0 < r' /\ 0 < n)%R /\
       (radau5 = false -> a' = a /\ r' = r) /\ (radau5 = true -> a' / r' = a / r /\ r' = 1/10 * powf r (2/3))%R /\
       n = Rmax (10 * EPSILON / r') (Rmin (3/100) (sqrt r'))) /\
  ((a <= 10 * EPSILON)%R \/ (r <= 10 * EPSILON)%R -> exists e, calc_tolerances powf radau5 a r = Err e).
Proof using powf_pos.
  pose proof eps_pos as E. unfold calc_tolerances.
  destruct (Rleb_spec a (10 * EPSILON)); [split; [intros; lra|eauto]|].
  destruct (Rleb_spec r (10 * EPSILON)); [split; [intros; lra|eauto]|].
  split; [|intros; lra]. intros _.
  assert (Hr : (0 < r)%R) by lra. assert (Ha : (0 < a)%R) by lra.
  pose proof (powf_pos r (2/3) Hr) as Hp.
  set (r' := if radau5 then (1/10 * powf r (2/3))%R else r). set (a' := if radau5 then (r' * (a / r))%R else a).
  assert (0 < a' /\ 0 < r')%R as (Ha' & Hr').
  { unfold a', r'. destruct radau5; split; try lra.
    apply Rmult_lt_0_compat; [lra|]. unfold Rdiv. apply Rmult_lt_0_compat; [lra|]. now apply Rinv_0_lt_compat. }
  exists a', r', (Rmax (10 * EPSILON / r') (Rmin (3 / 100) (sqrt r'))). split; [reflexivity|]. split.
  { splits; auto. eapply Rlt_le_trans; [|apply Rmax_l]. unfold Rdiv. apply Rmult_lt_0_compat; [lra|]. now apply Rinv_0_lt_compat. }
  split; [|split; [|reflexivity]]; intros ->; unfold a', r'; split; auto. field. split; lra.
Qed.

(** `set_tolerances` changes the tolerances only *)
Theorem C58_set_tolerances p a r n p' : set_tolerances powf p a r n = Ok p' ->
  (10 * EPSILON < a)%R /\ (10 * EPSILON < r)%R /\ (0 < t_abs (p_tol p') /\ 0 < t_rel (p_tol p'))%R /\
  (forall nn, n = Some nn -> t_newton (p_tol p') = nn) /\ (n = None -> (0 < t_newton (p_tol p'))%R) /\
  p_method p' = p_method p /\ p_newton p' = p_newton p /\ p_step p' = p_step p /\ p_stiff p' = p_stiff p /\
  p_modified_newton p' = p_modified_newton p /\ p_radau5 p' = p_radau5 p /\ p_erk p' = p_erk p.
Proof using powf_pos.
  unfold set_tolerances. set (b := method_eqb _ _). destruct (C58_tolerances b a r) as (H1 & H2).
  destruct (Rle_dec a (10 * EPSILON)); [destruct (H2 (or_introl r0)) as (e & ->); discriminate|].
  destruct (Rle_dec r (10 * EPSILON)); [destruct (H2 (or_intror r0)) as (e & ->); discriminate|].
  destruct H1 as (a' & r' & nn & E & (P1 & P2 & P3) & _); [split; lra|].
  rewrite E. cbn [bind]. intros H. injection H as <-. cbn [p_tol set_p_tol t_abs t_rel t_newton p_method p_newton p_step p_stiff p_modified_newton p_radau5 p_erk].
  splits; auto; try lra; [intros ? -> ; auto|intros ->; auto].
Qed.

(** the default parameters of every method validate *)
Theorem C58_defaults m : exists p, params_new powf m = Ok p /\ params_validate p = Ok tt /\ p_method p = m.
Proof using powf_pos.
  unfold params_new. destruct (C58_tolerances (method_eqb m Radau5) (1/10^4) (1/10^4)) as (H & _).
  destruct H as (a & r & n & -> & _); [pose proof eps_small; split; lra|]. cbn [unwrap bind].
  set (q := match m with Radau5 => _ | DoPri8 => _ | _ => _ end). set (hr := match m with DoPri5 => Some _ | DoPri8 => _ | _ => None end).
  set (l := match m with DoPri5 => _ | DoPri8 => _ | _ => _ end).
  assert (Hq : exists mn mx sf rp, q = (mn, mx, sf, rp) /\ (0.001 <= mn <= 0.5 /\ mn < mx /\ 0.01 <= mx <= 20 /\ 0.1 <= sf <= 1 /\ 1e-8 <= rp)%R).
  { unfold q. destruct m; do 4 eexists; split; try reflexivity; splits; lra. }
  assert (Hl : exists lb lm, l = (lb, lm) /\ (0 <= lb <= 0.1 /\ 0 <= lm <= 1)%R).
  { unfold l. destruct m; do 2 eexists; split; try reflexivity; splits; lra. }
  destruct Hq as (mn & mx & sf & rp & -> & Hq). destruct Hl as (lb & lm & -> & Hl).
  eexists. split; [reflexivity|]. split; [|reflexivity].
  apply C58_validate_iff. cbn [p_newton p_step p_radau5 p_erk]. unfold newton_ok, step_ok, radau5_ok, erk_ok.
  cbn [n_iteration_max m_min m_max m_safety m_first_reject h_ini n_step_max rel_error_prev_min theta_max c1h c2h lund_beta lund_m].
  splits; try lra; try lia; tauto.
Qed.
End Tol.

(** * C57 *)

(** one accepted step as the detector sees it: the station and h*rho *)
Definition stiff_step (ps : params_stiff) (o : R * R) (w : workspace) : res workspace :=
  detect_stiffness (set_w_stiff_hrho (snd o) (add_n_accepted w)) (fst o) ps.
Definition stiff_run (ps : params_stiff) (obs : list (R * R)) (w : workspace) : res workspace :=
  for_each obs (stiff_step ps) w.

(** the ratio test *)
Definition positive (ps : params_stiff) (o : R * R) : bool :=
  match ps_h_times_rho_max ps with None => true | Some m => Rltb m (snd o) end.

(** no [n] consecutive negative tests in a row *)
Definition no_run (ps : params_stiff) (l : list (R * R)) : Prop :=
  ~ exists a q b, l = a ++ q ++ b /\ length q = ps_ignored_after_nstep ps /\ (forall o, In o q -> positive ps o = false).

(** [s] is the part of the history since the last reset: it begins at the start of the history or
    right after [ignored_after_nstep] consecutive negatives, and has no such run inside *)
Definition since_reset (ps : params_stiff) (hist s : list (R * R)) : Prop :=
  exists p, hist = p ++ s /\ no_run ps s /\
    (p = [] \/ exists a q, p = a ++ q /\ length q = ps_ignored_after_nstep ps /\ forall o, In o q -> positive ps o = false).

Definition count_pos (ps : params_stiff) (l : list (R * R)) : nat := length (filter (positive ps) l).

Definition min_x (l : list (R * R)) : option R :=
  fold_left (fun acc o => Some (match acc with None => fst o | Some x => Rmin (fst o) x end)) l None.

(** the state after a history: [s] is the suffix the counters refer to *)
Definition stiff_inv (ps : params_stiff) (hist : list (R * R)) (w : workspace) : Prop :=
  exists s t, since_reset ps hist s /\ w_stiff_yes w = count_pos ps s /\ w_stiff_x w = min_x (filter (positive ps) s) /\
    (* t: the trailing negatives of the history *)
    (exists h', hist = h' ++ t /\ (h' = [] \/ exists h'' o, h' = h'' ++ [o] /\ positive ps o = true)) /\
    (forall o, In o t -> positive ps o = false) /\ w_stiff_no w = length t.

Lemma min_x_snoc l o : min_x (l ++ [o]) = Some (match min_x l with None => fst o | Some x => Rmin (fst o) x end).
Proof. unfold min_x. now rewrite fold_left_app. Qed.

Lemma no_run_snoc_pos ps s o : 0 < ps_ignored_after_nstep ps -> no_run ps s -> positive ps o = true -> no_run ps (s ++ [o]).
Proof.
  intros Hi H Po (a & q & b & E & L & N). apply H.
  destruct (rev b) as [|z rb] eqn:Eb.
  - apply (f_equal (@rev _)) in Eb. rewrite rev_involutive in Eb. cbn in Eb. subst b. rewrite app_nil_r in E.
    destruct q as [|z q _] using rev_ind; [cbn in L; lia|].
    rewrite app_assoc in E. apply app_inj_tail in E. destruct E as (_ & ->).
    rewrite N in Po; [discriminate|]. apply in_or_app. right. now left.
  - apply (f_equal (@rev _)) in Eb. rewrite rev_involutive in Eb. cbn in Eb. subst b.
    rewrite !app_assoc in E. apply app_inj_tail in E. destruct E as (-> & _).
    exists a, q, (rev rb). rewrite app_assoc. auto.
Qed.

Lemma filter_neg ps l : (forall o, In o l -> positive ps o = false) -> filter (positive ps) l = [].
Proof. induction l as [|o l IH]; intros H; [reflexivity|]. cbn. rewrite H by now left. apply IH. intros; apply H; now right. Qed.

(** a suffix without a full negative run, extended by a negative: a run can only be at its end *)
Lemma no_run_snoc_neg ps s o t h' : 0 < ps_ignored_after_nstep ps -> no_run ps s -> positive ps o = false ->
  s = h' ++ t -> (h' = [] \/ exists h'' o', h' = h'' ++ [o'] /\ positive ps o' = true) -> (forall z, In z t -> positive ps z = false) ->
  length t + 1 <> ps_ignored_after_nstep ps -> no_run ps (s ++ [o]).
Proof.
  intros Hi H No Es Hh Ht Hl (a & q & b & E & L & N).
  destruct b as [|z b _] using rev_ind.
  - rewrite app_nil_r in E. destruct q as [|z q _] using rev_ind; [cbn in L; lia|].
    rewrite app_assoc in E. apply app_inj_tail in E. destruct E as (E & <-). rewrite app_length in L; cbn in L.
    (* q is a suffix of s with only negatives, so at most t *)
    assert (Lq : length q <= length t).
    { destruct Hh as [->|(h'' & o' & -> & Po)].
      - cbn in Es. subst t. rewrite E, app_length. lia.
      - destruct (Nat.le_gt_cases (length q) (length t)) as [|G]; auto. exfalso.
        assert (I : In o' q).
        { rewrite Es, <- app_assoc in E.
          assert (exists q1, q = q1 ++ [o'] ++ t).
          { exists (skipn (length a) h'').
            assert (La : length a <= length h'') by (apply (f_equal (@length _)) in E; rewrite !app_length in E; cbn in E; lia).
            apply (f_equal (skipn (length a))) in E. rewrite skipn_app in E.
            replace (length a - length h'') with 0 in E by lia. rewrite skipn_O in E.
            rewrite skipn_app, skipn_all, Nat.sub_diag in E. cbn in E. now symmetry. }
          destruct H0 as (q1 & ->). apply in_or_app. right. now left. }
        rewrite (N o') in Po; [discriminate|]. apply in_or_app. now left. }
    assert (Lt : length q < length t) by (rewrite <- L in Hl; lia).
    (* then a full run fits inside t *)
    apply H. exists (h' ++ firstn (length t - (length q + 1)) t), (skipn (length t - (length q + 1)) t), [].
    rewrite app_nil_r, <- app_assoc, firstn_skipn. split; [auto|]. split; [rewrite skipn_length; lia|].
    intros z' Hz. apply Ht. eapply In_skipn_ex in Hz || (rewrite <- (firstn_skipn (length t - (length q + 1)) t); apply in_or_app; now right).
  - rewrite !app_assoc in E. apply app_inj_tail in E. destruct E as (E & _).
    apply H. exists a, q, b. rewrite E, app_assoc. auto.
Qed.

Lemma stiff_step_inv ps hist o w w' :
  0 < ps_ignored_after_nstep ps -> ps_skip_first ps < n_accepted (w_stats w) + 1 -> stiff_inv ps hist w ->
  stiff_step ps o w = Ok w' ->
  stiff_inv ps (hist ++ [o]) w' /\ n_accepted (w_stats w') = n_accepted (w_stats w) + 1 /\
  (w_stiff_detected w' = true <-> positive ps o = true /\ w_stiff_yes w' = ps_ratified_after_nstep ps).
Proof.
  intros Hi Hs (s & t & (p & Eh & Nr & Hp) & Ey & Ex & (h' & Eh' & Hh') & Ht & En).
  unfold stiff_step, detect_stiffness.
  cbn [w_stats set_w_stiff_detected set_w_stiff_hrho add_n_accepted on_stats set_w_stats n_accepted set_n_accepted w_stiff_hrho w_stiff_x set_w_stiff_x set_w_stiff_no
       w_stiff_no set_w_stiff_yes w_stiff_yes w_stiff_detected].
  destruct (Nat.leb_spec (n_accepted (w_stats w) + 1) (ps_skip_first ps)); [lia|].
  change (match ps_h_times_rho_max ps with Some m => Rltb m (snd o) | None => true end) with (positive ps o).
  destruct (positive ps o) eqn:Po.
  - (* positive *)
    set (w1 := set_w_stiff_yes _ _).
    assert (G : stiff_inv ps (hist ++ [o]) w1).
    { exists (s ++ [o]), []. split.
      { exists p. rewrite Eh, <- app_assoc. split; [reflexivity|]. split; [now apply no_run_snoc_pos|exact Hp]. }
      unfold w1. cbn [w_stiff_yes set_w_stiff_yes w_stiff_no set_w_stiff_no w_stiff_x set_w_stiff_x].
      unfold count_pos. rewrite !filter_app. cbn [filter]. rewrite Po, app_length. cbn [length]. rewrite min_x_snoc, <- Ex.
      splits; auto; [|intros ? []].
      exists (hist ++ [o]). rewrite app_nil_r. split; [reflexivity|]. right. eauto. }
    destruct (Nat.eqb_spec (w_stiff_yes w + 1) (ps_ratified_after_nstep ps)) as [e|e].
    + destruct (ps_stop_with_error ps); [discriminate|]. intros HW; injection HW as <-. split.
      * destruct G as (s' & t' & G). exists s', t'. exact G.
      * split; [reflexivity|]. cbn. tauto.
    + intros HW; injection HW as <-. split; [exact G|]. split; [reflexivity|]. cbn. split; [discriminate|]. intros (_ & E). lia.
  - (* negative *)
    assert (G : forall w1, w_stiff_no w1 = w_stiff_no w + 1 ->
       (w_stiff_no w + 1 <> ps_ignored_after_nstep ps -> w_stiff_yes w1 = w_stiff_yes w /\ w_stiff_x w1 = w_stiff_x w) ->
       (w_stiff_no w + 1 = ps_ignored_after_nstep ps -> w_stiff_yes w1 = 0 /\ w_stiff_x w1 = None) -> stiff_inv ps (hist ++ [o]) w1).
    { intros w1 E1 E2 E3.
      assert (T : exists h', hist ++ [o] = h' ++ (t ++ [o]) /\ (h' = [] \/ exists h'' o0, h' = h'' ++ [o0] /\ positive ps o0 = true)).
      { exists h'. rewrite Eh', app_assoc. auto. }
      assert (T2 : forall z, In z (t ++ [o]) -> positive ps z = false).
      { intros z Hz. apply in_app_or in Hz. destruct Hz as [Hz|[<-|[]]]; auto. }
      assert (T3 : w_stiff_no w1 = length (t ++ [o])) by (rewrite app_length; cbn; lia).
      destruct (Nat.eq_dec (w_stiff_no w + 1) (ps_ignored_after_nstep ps)) as [e|e].
      - destruct (E3 e) as (Y & X). exists [], (t ++ [o]). split; [|unfold count_pos; cbn; auto 6].
        exists (hist ++ [o]). rewrite app_nil_r. split; [reflexivity|]. split.
        { intros (a & q & b & E & L & _). destruct a; [|discriminate]. destruct q; [cbn in L; lia|discriminate]. }
        right. exists h', (t ++ [o]). split; [rewrite Eh', app_assoc; auto|]. split; [lia|exact T2].
      - destruct (E2 e) as (Y & X). 
        destruct (Nat.le_gt_cases (length t) (length s)) as [Ls|Ls].
        + (* t within s *)
          assert (Es : exists h2, s = h2 ++ t /\ (h2 = [] \/ exists h3 o3, h2 = h3 ++ [o3] /\ positive ps o3 = true)).
          { rewrite Eh in Eh'.
            assert (Lp : length p <= length h') by (apply (f_equal (@length _)) in Eh'; rewrite !app_length in Eh'; lia).
            exists (skipn (length p) h'). split.
            - apply (f_equal (skipn (length p))) in Eh'. rewrite !skipn_app, skipn_all, Nat.sub_diag in Eh'. cbn in Eh'.
              replace (length p - length h') with 0 in Eh' by lia. exact Eh'.
            - destruct Hh' as [->|(h3 & o3 & -> & P3)]; [left; now rewrite skipn_nil|].
              rewrite skipn_app. rewrite app_length in Lp; cbn in Lp.
              destruct (Nat.eq_dec (length p) (length h3 + 1)) as [e2|e2].
              + left. rewrite e2. rewrite skipn_all2 by lia. replace (length h3 + 1 - length h3) with 1 by lia. reflexivity.
              + right. exists (skipn (length p) h3), o3. replace (length p - length h3) with 0 by lia. auto. }
          destruct Es as (h2 & Es & Hh2).
          exists (s ++ [o]), (t ++ [o]). split.
          { exists p. rewrite Eh, <- app_assoc. split; [reflexivity|]. split; [|exact Hp].
            eapply no_run_snoc_neg; eauto. lia. }
          unfold count_pos. rewrite filter_app. cbn [filter]. rewrite Po, app_nil_r. unfold count_pos in Ey. rewrite Y, X. auto 6.
        + (* the trailing negatives reach past the last reset: nothing positive since *)
          exists [], (t ++ [o]).
          assert (Sn : forall z, In z s -> positive ps z = false).
          { intros z Hz. apply Ht. rewrite Eh in Eh'.
            assert (E4 : s = skipn (length p - length h') t).
            { apply (f_equal (skipn (length p))) in Eh'. rewrite !skipn_app, skipn_all, Nat.sub_diag in Eh'. cbn in Eh'.
              rewrite (skipn_all2 h') in Eh' by (apply (f_equal (@length _)) in Eh'; apply (f_equal (@length _)) in Eh; rewrite ?app_length, ?skipn_length in *; lia). exact Eh'. }
            rewrite E4 in Hz. rewrite <- (firstn_skipn (length p - length h') t). apply in_or_app. now right. }
          unfold count_pos in *. rewrite (filter_neg _ _ Sn) in Ey, Ex. cbn in Ey, Ex.
          split; [|cbn; rewrite Y, X; auto 6].
          destruct Hp as [->|(a & q & -> & Lq & Nq)]; [cbn in Eh; subst; rewrite app_length in Ls; cbn in Ls; lia|].
          exists (hist ++ [o]). rewrite app_nil_r. split; [reflexivity|]. split.
          { intros (a' & q' & b & E & L & _). destruct a'; [|discriminate]. destruct q'; [cbn in L; lia|discriminate]. }
          right. exists (a ++ firstn (length s + 1) (q ++ s ++ [o])), (skipn (length s + 1) (q ++ s ++ [o])).
          rewrite <- app_assoc, firstn_skipn. split; [rewrite Eh, <- !app_assoc; reflexivity|].
          split; [rewrite skipn_length, !app_length; cbn; lia|].
          intros z Hz. assert (I : In z (q ++ s ++ [o])) by (rewrite <- (firstn_skipn (length s + 1) (q ++ s ++ [o])); apply in_or_app; now right).
          apply in_app_or in I. destruct I as [I|I]; auto. apply in_app_or in I. destruct I as [I|[<-|[]]]; auto. }
    destruct (Nat.eqb_spec (w_stiff_no w + 1) (ps_ignored_after_nstep ps)) as [e|e]; intros HW; injection HW as <-;
      (split; [apply G; cbn; auto; try contradiction; try (intros; contradiction)|split; [reflexivity|cbn; split; [discriminate|intros (? & _); discriminate]]]).
Qed.

(** the whole run from the start of a solve *)
Lemma stiff_run_skip ps obs w w' : n_accepted (w_stats w) + length obs <= ps_skip_first ps -> stiff_run ps obs w = Ok w' ->
  w_stiff_yes w' = w_stiff_yes w /\ w_stiff_no w' = w_stiff_no w /\ w_stiff_x w' = w_stiff_x w /\
  n_accepted (w_stats w') = n_accepted (w_stats w) + length obs /\ (obs <> [] -> w_stiff_detected w' = false).
Proof.
  revert w. induction obs as [|o obs IH]; intros w L; cbn [stiff_run for_each].
  - intros HW; injection HW as <-. cbn. splits; auto. congruence.
  - cbn [length] in L. unfold stiff_step at 1, detect_stiffness.
    cbn [w_stats set_w_stiff_detected set_w_stiff_hrho add_n_accepted on_stats set_w_stats n_accepted set_n_accepted].
    destruct (Nat.leb_spec (n_accepted (w_stats w) + 1) (ps_skip_first ps)); [|lia]. cbn [bind]. intros E.
    destruct obs as [|o2 obs].
    + cbn in E. injection E as <-. cbn. splits; auto.
    + pose proof (fun L => IH _ L E) as IH2. clear IH. rename IH2 into IH.
      cbn [w_stats set_w_stiff_detected set_w_stiff_hrho add_n_accepted on_stats set_w_stats n_accepted set_n_accepted length w_stiff_yes w_stiff_no w_stiff_x] in *.
      destruct IH as (I1 & I2 & I3 & I4 & I5); [lia|]. splits; auto; try lia. intros _. apply I5. discriminate.
Qed.

Lemma since_reset_unique_count ps hist s s' : since_reset ps hist s -> since_reset ps hist s' -> 0 < ps_ignored_after_nstep ps ->
  count_pos ps s = count_pos ps s'.
Proof.
  assert (K : forall s s', since_reset ps hist s -> since_reset ps hist s' -> 0 < ps_ignored_after_nstep ps -> length s <= length s' -> count_pos ps s = count_pos ps s').
  { clear. intros s s' (p & E & N & P) (p' & E' & N' & P') Hi L.
    assert (Lp : length p' <= length p) by (apply (f_equal (@length _)) in E; apply (f_equal (@length _)) in E'; rewrite app_length in *; lia).
    (* p = p' ++ d, s' = d ++ s *)
    assert (D : exists d, p = p' ++ d /\ s' = d ++ s).
    { exists (skipn (length p') p). rewrite E in E'. split.
      - apply (f_equal (firstn (length p'))) in E'. rewrite !firstn_app, firstn_all, Nat.sub_diag in E'. cbn in E'.
        rewrite app_nil_r in E'. replace (length p' - length p) with 0 in E' by lia. cbn in E'. rewrite app_nil_r in E'.
        rewrite <- E' at 1. now rewrite firstn_skipn.
      - apply (f_equal (skipn (length p'))) in E'. rewrite !skipn_app, skipn_all, Nat.sub_diag in E'. cbn in E'.
        replace (length p' - length p) with 0 in E' by lia. cbn in E'. auto. }
    destruct D as (d & Ep & Es'). subst s'. unfold count_pos. rewrite filter_app, app_length.
    assert (Z : filter (positive ps) d = []); [|rewrite Z; reflexivity].
    destruct P as [->|(a & q & Eq & Lq & Nq)].
    - symmetry in Ep. apply app_eq_nil in Ep. destruct Ep as (_ & ->). reflexivity.
    - rewrite Eq in Ep. destruct (Nat.le_gt_cases (length q) (length d)) as [G|G].
      + exfalso. apply N'. exists (skipn (length p') a), q, s. split; [|auto].
        rewrite app_assoc. f_equal.
        assert (length p' <= length a) by (apply (f_equal (@length _)) in Ep; rewrite !app_length in Ep; lia).
        apply (f_equal (skipn (length p'))) in Ep. rewrite !skipn_app, skipn_all, Nat.sub_diag in Ep. cbn in Ep.
        replace (length p' - length a) with 0 in Ep by lia. auto.
      + apply filter_neg. intros z Hz. apply Nq.
        assert (Ed : d = skipn (length p' - length a) q).
        { assert (length a <= length p') by (apply (f_equal (@length _)) in Ep; rewrite !app_length in Ep; lia).
          apply (f_equal (skipn (length p'))) in Ep. rewrite !skipn_app, skipn_all, Nat.sub_diag in Ep. cbn in Ep.
          rewrite (skipn_all2 a) in Ep by lia. auto. }
        rewrite Ed in Hz. rewrite <- (firstn_skipn (length p' - length a) q). apply in_or_app. now right. }
  intros H1 H2 Hi. destruct (Nat.le_ge_cases (length s) (length s')); [apply K; auto|symmetry; apply K; auto].
Qed.

(** C57: after any sequence of accepted steps of one solve, stiffness is reported at the last step
    exactly when that step tested positive and the number of positive tests since the last reset is
    the configured number. The first [skip] steps do not count. *)
Theorem C57_detected ps obs o h prev w0 w :
  0 < ps_ignored_after_nstep ps -> stiff_run ps (obs ++ [o]) (workspace_reset h prev w0) = Ok w ->
  let hist := skipn (ps_skip_first ps) (obs ++ [o]) in
  exists s, since_reset ps hist s /\ (forall s', since_reset ps hist s' -> count_pos ps s' = count_pos ps s) /\
    w_stiff_yes w = count_pos ps s /\ w_stiff_x w = min_x (filter (positive ps) s) /\
    (w_stiff_detected w = true <->
       ps_skip_first ps < length (obs ++ [o]) /\ positive ps o = true /\ count_pos ps s = ps_ratified_after_nstep ps).
Proof.
  intros Hi H hist.
  set (l := obs ++ [o]) in *. 
  assert (Fe : forall (f : R * R -> workspace -> res workspace) l1 l2 w, for_each (l1 ++ l2) f w = (w1 <- for_each l1 f w ;; for_each l2 f w1)).
  { clear. intros f l1. induction l1 as [|a l1 IH]; intros l2 w; cbn [for_each app]; [reflexivity|]. destruct (f a w); cbn [bind]; auto. }
  unfold stiff_run in H. rewrite <- (firstn_skipn (ps_skip_first ps) l) in H. rewrite Fe in H. fold hist in H.
  apply bind_ok in H. destruct H as (w1 & H1 & H2).
  apply stiff_run_skip in H1; [|cbn; rewrite firstn_length; lia]. destruct H1 as (Y1 & N1 & X1 & A1 & D1).
  cbn in Y1, N1, X1, A1.
  assert (I0 : stiff_inv ps [] w1).
  { exists [], []. split. { exists []. split; [reflexivity|]. split; [|now left]. intros (a & q & b & E & L & _). destruct a; [|discriminate]. destruct q; [cbn in L; lia|discriminate]. }
    rewrite Y1, N1, X1. splits; auto; [exists []; auto|intros ? []]. }
  assert (Hl : l <> []) by (unfold l; destruct obs; discriminate).
  destruct (list_eq_dec (fun a b : R * R => ltac:(decide equality; apply Req_EM_T)) hist []) as [Eh|Eh].
  - rewrite Eh in H2 |- *. cbn in H2. injection H2 as <-. destruct I0 as (s & t & S & Y & X & _).
    exists s. splits; auto. { intros s' S'. now apply (since_reset_unique_count ps [] s' s). }
    assert (L : length l <= ps_skip_first ps). { apply (f_equal (@length _)) in Eh. unfold hist in Eh. rewrite skipn_length in Eh. cbn in Eh. lia. }
    rewrite firstn_all2 in D1 by lia. rewrite (D1 Hl). split; [discriminate|]. intros (? & _). lia.
  - assert (L : ps_skip_first ps < length l).
    { destruct (Nat.lt_ge_cases (ps_skip_first ps) (length l)); auto. exfalso. apply Eh. unfold hist. now apply skipn_all2. }
    rewrite firstn_length in A1. replace (Nat.min (ps_skip_first ps) (length l)) with (ps_skip_first ps) in A1 by lia.
    assert (G : forall m w2 hist0, stiff_inv ps hist0 w2 -> ps_skip_first ps <= n_accepted (w_stats w2) -> for_each m (stiff_step ps) w2 = Ok w -> 
       m <> [] -> stiff_inv ps (hist0 ++ m) w /\ (w_stiff_detected w = true <-> positive ps (last m (0,0)%R) = true /\ w_stiff_yes w = ps_ratified_after_nstep ps)).
    { clear -Hi. induction m as [|a m IH]; intros w2 hist0 I A E Hm; [congruence|]. cbn [for_each] in E. apply bind_ok in E. destruct E as (w3 & E1 & E2).
      destruct (stiff_step_inv ps hist0 a w2 w3 Hi ltac:(lia) I E1) as (I3 & A3 & D3).
      destruct m as [|b m].
      - cbn in E2. injection E2 as <-. cbn [last]. auto.
      - replace (hist0 ++ a :: b :: m) with ((hist0 ++ [a]) ++ b :: m) by (now rewrite <- app_assoc).
        change (last (a :: b :: m) (0,0)%R) with (last (b :: m) (0,0)%R). apply (IH w3); auto; [lia|discriminate]. }
    destruct (G hist w1 [] I0 ltac:(lia) H2 Eh) as (I & D). cbn [app] in I.
    assert (El : last hist (0,0)%R = o).
    { unfold hist, l. rewrite skipn_app. unfold l in L. rewrite app_length in L; cbn in L.
      replace (ps_skip_first ps - length obs) with 0 by lia. cbn. apply last_last. }
    rewrite El in D. destruct I as (s & t & S & Y & X & _).
    exists s. splits; auto. { intros s' S'. now apply (since_reset_unique_count ps hist s' s). }
    rewrite D, Y. tauto.
Qed.

(** with [stop_with_error] the first report ends the run with an error, and nothing else does *)
Theorem C57_stops ps obs w : (exists e, stiff_run ps obs w = Err e) ->
  ps_stop_with_error ps = true /\ exists l1 o l2 w1, obs = l1 ++ o :: l2 /\ stiff_run ps l1 w = Ok w1 /\ positive ps o = true /\
    w_stiff_yes w1 + 1 = ps_ratified_after_nstep ps.
Proof.
  revert w. induction obs as [|o obs IH]; intros w (e & E); cbn [stiff_run for_each] in E; [discriminate|].
  destruct (stiff_step ps o w) as [w1| |] eqn:E1; cbn [bind] in E.
  - destruct (IH w1 (ex_intro _ e E)) as (S & l1 & o' & l2 & w2 & -> & R & P & Y). split; [exact S|].
    exists (o :: l1), o', l2, w2. split; [reflexivity|]. cbn [stiff_run for_each]. rewrite E1. auto.
  - unfold stiff_step, detect_stiffness in E1.
    cbn [w_stats set_w_stiff_detected set_w_stiff_hrho add_n_accepted on_stats set_w_stats n_accepted set_n_accepted w_stiff_hrho w_stiff_x set_w_stiff_x set_w_stiff_no
       w_stiff_no set_w_stiff_yes w_stiff_yes w_stiff_detected] in E1.
    destruct (_ <=? _); [discriminate|]. 
    change (match ps_h_times_rho_max ps with Some m => Rltb m (snd o) | None => true end) with (positive ps o) in E1.
    destruct (positive ps o) eqn:P; [|destruct (_ =? _); discriminate].
    destruct (Nat.eqb_spec (w_stiff_yes w + 1) (ps_ratified_after_nstep ps)) as [Y|]; [|discriminate].
    destruct (ps_stop_with_error ps); [|discriminate]. split; [reflexivity|].
    exists [], o, obs, w. auto.
  - discriminate.
Qed.

Lemma stiff_step_pos ps o w : ps_skip_first ps < n_accepted (w_stats w) + 1 -> positive ps o = true ->
  ps_stop_with_error ps = false -> exists w', stiff_step ps o w = Ok w' /\ w_stiff_yes w' = w_stiff_yes w + 1 /\ n_accepted (w_stats w') = n_accepted (w_stats w) + 1 /\
    w_stiff_detected w' = (w_stiff_yes w + 1 =? ps_ratified_after_nstep ps).
Proof.
  intros H P S. unfold stiff_step, detect_stiffness.
  cbn [w_stats set_w_stiff_detected set_w_stiff_hrho add_n_accepted on_stats set_w_stats n_accepted set_n_accepted w_stiff_hrho w_stiff_x set_w_stiff_x set_w_stiff_no
       w_stiff_no set_w_stiff_yes w_stiff_yes w_stiff_detected].
  destruct (Nat.leb_spec (n_accepted (w_stats w) + 1) (ps_skip_first ps)); [lia|].
  change (match ps_h_times_rho_max ps with Some m => Rltb m (snd o) | None => true end) with (positive ps o). rewrite P, S.
  destruct (Nat.eqb_spec (w_stiff_yes w + 1) (ps_ratified_after_nstep ps)); eexists; splits; reflexivity.
Qed.

(** two positive tests in a row, with ratification after two, are reported *)
Example C57_ex : exists w, stiff_run (mkStiff true false true 2 2 0 (Some 3%R)) [(0,9);(1,4)]%R (workspace_reset 1 1 workspace_new) = Ok w /\ w_stiff_detected w = true.
Proof.
  set (ps := mkStiff true false true 2 2 0 (Some 3%R)).
  assert (P1 : positive ps (0,9)%R = true) by (apply Rltb_true; cbn; lra).
  assert (P2 : positive ps (1,4)%R = true) by (apply Rltb_true; cbn; lra).
  destruct (stiff_step_pos ps (0,9)%R (workspace_reset 1 1 workspace_new)) as (w1 & E1 & Y1 & N1 & _); [cbn; lia|auto|auto|].
  destruct (stiff_step_pos ps (1,4)%R w1) as (w2 & E2 & Y2 & N2 & D2); [rewrite N1; cbn; lia|auto|auto|].
  exists w2. cbn [stiff_run for_each]. rewrite E1. cbn [bind for_each]. rewrite E2. split; [reflexivity|]. rewrite D2, Y1. reflexivity.
Qed.

Print Assumptions C58_validate_iff.
Print Assumptions C57_detected.
