(** The output recorder: every requested station is emitted exactly once and in order, and the recorded
    steps are the accepted steps (C55, C53). *)
From Coq Require Import Lra.
From Verif Require Import Ode_Drv_Model Ode_Base_Thm Ode_Drv_Thm.
Local Open Scope nat_scope.

(** * Specification: what an observer sees *)
Notation triple := (R * R * vec)%type.
Definition step_events (l : list event) : list triple :=
  flat_map (fun e => match e with EvStepCb h x y => [(h, x, y)] | _ => [] end) l.
Definition step_files (l : list event) : list (nat * triple) :=
  flat_map (fun e => match e with EvStepFile i h x y => [(i, (h, x, y))] | _ => [] end) l.
Definition dense_events (l : list event) : list triple :=
  flat_map (fun e => match e with EvDenseCb h x y => [(h, x, y)] | _ => [] end) l.
Definition dense_files (l : list event) : list (nat * triple) :=
  flat_map (fun e => match e with EvDenseFile i h x y => [(i, (h, x, y))] | _ => [] end) l.
Definition is_some {A} (o : option A) : bool := match o with Some _ => true | None => false end.
Arguments is_some : simpl never.
Definition pick {A} (b : bool) (l : list A) : list A := if b then l else [].
(** files numbered from [a] *)
Definition number (a : nat) (l : list triple) : list (nat * triple) := combine (seq a (length l)) l.

(** what the recorder holds after the accepted steps [steps] and the dense points [ems]; [o0] is the
    recorder right after `initialize` *)
Record shows (o0 o : output) (steps ems : list triple) : Prop := mkShows {
  sh_cfg : o_initialized o = o_initialized o0 /\ o_step_cb o = o_step_cb o0 /\ o_step_file o = o_step_file o0 /\ o_step_rec o = o_step_rec o0 /\
    o_dense_cb o = o_dense_cb o0 /\ o_dense_file o = o_dense_file o0 /\ o_dense_rec o = o_dense_rec o0 /\ o_dense_x o = o_dense_x o0 /\
    map fst (o_step_y o) = map fst (o_step_y o0) /\ map fst (o_dense_y o) = map fst (o_dense_y o0) /\ o_yx_fn o = o_yx_fn o0;
  sh_step_rec : o_step_rec o0 = true ->
    o_step_h o = hs_of steps /\ o_step_x o = xs_of steps /\
    (forall m ym, In (m, ym) (o_step_y o) -> ym = map (fun p => nth m (snd p) 0%R) steps);
  sh_step_cb : step_events (o_log o) = step_events (o_log o0) ++ pick (is_some (o_step_cb o0)) steps;
  sh_step_file : step_files (o_log o) = step_files (o_log o0) ++ pick (o_step_file o0) (number (o_step_file_count o0) steps) /\
    o_step_file_count o = o_step_file_count o0 + length (pick (o_step_file o0) steps);
  sh_dense_cb : dense_events (o_log o) = dense_events (o_log o0) ++ pick (is_some (o_dense_cb o0)) ems;
  sh_dense_file : dense_files (o_log o) = dense_files (o_log o0) ++ pick (o_dense_file o0) (number (o_dense_file_count o0) ems) /\
    o_dense_file_count o = o_dense_file_count o0 + length (pick (o_dense_file o0) ems);
  sh_dense_rec : o_dense_rec o0 = true -> forall m ym, In (m, ym) (o_dense_y o) ->
    length ym = length (o_dense_x o0) /\ forall i, i < length ems -> nth i ym 0%R = nth m (snd (nth i ems (0%R, 0%R, []))) 0%R }.

(** * Lemmas *)
Lemma hm_map_inv g l l' : hm_map g l = Ok l' -> map fst l' = map fst l /\
  forall m ym', In (m, ym') l' -> exists ym, In (m, ym) l /\ g m ym = Ok ym'.
Proof.
  revert l'. induction l as [|[m ym] l IH]; intros l' E; cbn in E.
  - injection E as <-. split; [reflexivity|]. intros ? ? [].
  - apply bind_ok in E as (ym' & E1 & E). apply bind_ok in E as (r & E2 & E). injection E as <-.
    destruct (IH _ E2) as [A B]. split; [cbn; now rewrite A|].
    intros m0 y0 [Hd|Ht].
    + injection Hd as <- <-. exists ym. split; [now left|exact E1].
    + destruct (B _ _ Ht) as (y & Hy & Hg). exists y. split; [now right|exact Hg].
Qed.

Lemma number_snoc a l p : number a (l ++ [p]) = number a l ++ [(a + length l, p)].
Proof.
  unfold number. rewrite app_length. cbn [length]. rewrite Nat.add_1_r, seq_S.
  revert a. induction l as [|q l IH]; intros a; [reflexivity|]. cbn. f_equal. rewrite <- plus_n_Sm. apply IH.
Qed.
Lemma pick_snoc {A} b (l : list A) p : pick b (l ++ [p]) = pick b l ++ pick b [p].
Proof. destruct b; reflexivity. Qed.

(** one dense point: callback, file and record *)
Lemma emit_shows o0 o steps ems st h x y o1 o2 :
  shows o0 o steps ems -> o_dense_index o = length ems ->
  run_cb (o_dense_cb o) st h x y (EvDenseCb h x y) o = Ok (false, o1) ->
  record_dense y (write_dense_file h x y o1) = Ok o2 ->
  shows o0 o2 steps (ems ++ [(h, x, y)]) /\ o_dense_index o2 = length ems /\ o_stiff_rec o2 = o_stiff_rec o.
Proof.
  intros [H1 H2 H3 [H4 H4'] H5 [H6 H6'] H7] Hi E1 E2.
  destruct H1 as (C0 & C1 & C2 & C3 & C4 & C5 & C6 & C7 & C8 & C9 & C10).
  assert (E1' : o1 = if is_some (o_dense_cb o0) then log (EvDenseCb h x y) o else o).
  { rewrite C4 in E1. unfold run_cb in E1. destruct (o_dense_cb o0) as [f|].
    - apply bind_ok in E1 as (st' & _ & E1). injection E1 as _ <-. reflexivity.
    - injection E1 as <-. reflexivity. }
  assert (Ef : write_dense_file h x y o1 = if o_dense_file o0 then
     set_o_dense_file_count (o_dense_file_count o + 1) (log (EvDenseFile (o_dense_file_count o) h x y) o1) else o1).
  { unfold write_dense_file. rewrite E1'. rewrite <- C5. destruct (is_some (o_dense_cb o0)); cbn; destruct (o_dense_file o); reflexivity. }
  rewrite Ef in E2. clear E1 Ef.
  set (oa := if o_dense_file o0 then _ else _) in E2.
  assert (A : o_step_h oa = o_step_h o /\ o_step_x oa = o_step_x o /\ o_step_y oa = o_step_y o /\ o_dense_rec oa = o_dense_rec o0 /\
     o_dense_index oa = length ems /\ o_dense_y oa = o_dense_y o /\ o_stiff_rec oa = o_stiff_rec o /\ o_step_file_count oa = o_step_file_count o /\
     o_dense_file_count oa = o_dense_file_count o + length (pick (o_dense_file o0) [(h, x, y)]) /\
     o_log oa = o_log o ++ pick (is_some (o_dense_cb o0)) [EvDenseCb h x y] ++ pick (o_dense_file o0) [EvDenseFile (o_dense_file_count o) h x y] /\
     o_initialized oa = o_initialized o0 /\ o_step_cb oa = o_step_cb o0 /\ o_step_file oa = o_step_file o0 /\ o_step_rec oa = o_step_rec o0 /\
     o_dense_cb oa = o_dense_cb o0 /\ o_dense_file oa = o_dense_file o0 /\ o_dense_x oa = o_dense_x o0 /\ o_yx_fn oa = o_yx_fn o0).
  { unfold oa. rewrite E1'. destruct (o_dense_file o0), (is_some (o_dense_cb o0)); cbn; rewrite ?app_nil_r, <- ?app_assoc; splits; auto; try lia. }
  destruct A as (A1 & A2 & A3 & A4 & A5 & A6 & A7 & A8 & A9 & A10 & B0 & B1 & B2 & B3 & B4 & B5 & B6 & B7).
  assert (Eo2 : exists dy, o2 = set_o_dense_y dy oa /\ map fst dy = map fst (o_dense_y o) /\
     (o_dense_rec o0 = true -> forall m ym', In (m, ym') dy -> exists ym, In (m, ym) (o_dense_y o) /\ m < length y /\ length ems < length ym /\ ym' = upd ym (length ems) (nth m y 0%R))).
  { unfold record_dense in E2. rewrite A4 in E2. destruct (o_dense_rec o0).
    - apply bind_ok in E2 as (dy & Ed & E2). injection E2 as <-. exists dy. split; [reflexivity|].
      rewrite A6 in Ed. apply hm_map_inv in Ed as [D1 D2]. split; [exact D1|].
      intros _ m ym' Hin. destruct (D2 _ _ Hin) as (ym & Hy & Hg). exists ym.
      apply bind_ok in Hg as (v & Hv & Hg). apply (vget_ok_inv _ _ _ 0%R) in Hv as [V1 V2].
      rewrite A5 in Hg. destruct (Nat.lt_ge_cases (length ems) (length ym)) as [L|L].
      + rewrite vset_ok in Hg by exact L. injection Hg as <-. splits; auto. now rewrite V2.
      + rewrite vset_panic in Hg by exact L. discriminate.
    - injection E2 as <-. exists (o_dense_y o). splits; [rewrite <- A6; destruct oa; reflexivity|reflexivity|discriminate]. }
  destruct Eo2 as (dy & -> & D1 & D2).
  split; [|cbn; split; [exact A5|exact A7]].
  assert (Q1 : step_events (o_log oa) = step_events (o_log o)).
  { rewrite A10. unfold step_events. rewrite !flat_map_app. destruct (is_some (o_dense_cb o0)), (o_dense_file o0); cbn; now rewrite app_nil_r. }
  assert (Q2 : step_files (o_log oa) = step_files (o_log o)).
  { rewrite A10. unfold step_files. rewrite !flat_map_app. destruct (is_some (o_dense_cb o0)), (o_dense_file o0); cbn; now rewrite app_nil_r. }
  assert (Q3 : dense_events (o_log oa) = dense_events (o_log o) ++ pick (is_some (o_dense_cb o0)) [(h, x, y)]).
  { rewrite A10. unfold dense_events. rewrite !flat_map_app. destruct (is_some (o_dense_cb o0)), (o_dense_file o0); cbn; now rewrite ?app_nil_r. }
  assert (Q4 : dense_files (o_log oa) = dense_files (o_log o) ++ pick (o_dense_file o0) [(o_dense_file_count o, (h, x, y))]).
  { rewrite A10. unfold dense_files. rewrite !flat_map_app. destruct (is_some (o_dense_cb o0)), (o_dense_file o0); cbn; now rewrite ?app_nil_r. }
  split; cbn [set_o_dense_y o_initialized o_step_cb o_step_file o_step_rec o_dense_cb o_dense_file o_dense_rec o_dense_x o_step_y o_dense_y o_yx_fn
    o_step_h o_step_x o_log o_step_file_count o_dense_file_count].
  - rewrite A3. splits; auto. now rewrite D1.
  - rewrite A1, A2, A3. exact H2.
  - rewrite Q1. exact H3.
  - rewrite Q2, A8. split; assumption.
  - rewrite Q3, H5, pick_snoc, app_assoc. reflexivity.
  - rewrite Q4, H6, A9, H6'. destruct (o_dense_file o0); cbn [pick length].
    + rewrite number_snoc, app_assoc, app_length. cbn [length]. split; [reflexivity|lia].
    + rewrite !app_nil_r. split; [reflexivity|lia].
  - intros Hr m ym' Hin. destruct (D2 Hr _ _ Hin) as (ym & Hy & Hm & Hl & ->). destruct (H7 Hr _ _ Hy) as [L1 L2].
    rewrite upd_length. split; [exact L1|]. intros i Hi'. rewrite app_length in Hi'. cbn [length] in Hi'.
    destruct (Nat.eq_dec i (length ems)) as [->|Ne].
    + rewrite nth_upd_eq by exact Hl. rewrite app_nth2 by lia. now rewrite Nat.sub_diag.
    + rewrite nth_upd_ne by lia. rewrite app_nth1 by lia. apply L2. lia.
Qed.

Lemma shows_index o0 o steps ems i : shows o0 o steps ems -> shows o0 (set_o_dense_index i o) steps ems.
Proof. intros [H1 H2 H3 H4 H5 H6 H7]. split; assumption. Qed.
Lemma shows_stiff o0 o steps ems w : shows o0 o steps ems -> shows o0 (record_stiff w o) steps ems /\ o_dense_index (record_stiff w o) = o_dense_index o.
Proof.
  intros [H1 H2 H3 H4 H5 H6 H7]. unfold record_stiff. destruct (o_stiff_rec o); [|split; [split; assumption|reflexivity]].
  destruct (w_stiff_detected w); (split; [split; assumption|reflexivity]).
Qed.

(** callback, file and record of a step *)
Lemma step_shows o0 o steps ems st h x y o1 o2 :
  shows o0 o steps ems ->
  run_cb (o_step_cb o) st h x y (EvStepCb h x y) o = Ok (false, o1) ->
  record_step h x y (write_step_file h x y o1) = Ok o2 ->
  shows o0 o2 (steps ++ [(h, x, y)]) ems /\ o_dense_index o2 = o_dense_index o /\ o_stiff_rec o2 = o_stiff_rec o.
Proof.
  intros [H1 H2 H3 [H4 H4'] H5 [H6 H6'] H7] E1 E2.
  destruct H1 as (C0 & C1 & C2 & C3 & C4 & C5 & C6 & C7 & C8 & C9 & C10).
  assert (E1' : o1 = if is_some (o_step_cb o0) then log (EvStepCb h x y) o else o).
  { rewrite C1 in E1. unfold run_cb in E1. destruct (o_step_cb o0) as [f|].
    - apply bind_ok in E1 as (st' & _ & E1). injection E1 as _ <-. reflexivity.
    - injection E1 as <-. reflexivity. }
  assert (Ef : write_step_file h x y o1 = if o_step_file o0 then
     set_o_step_file_count (o_step_file_count o + 1) (log (EvStepFile (o_step_file_count o) h x y) o1) else o1).
  { unfold write_step_file. rewrite E1'. rewrite <- C2. destruct (is_some (o_step_cb o0)); cbn; destruct (o_step_file o); reflexivity. }
  rewrite Ef in E2. clear E1 Ef.
  set (oa := if o_step_file o0 then _ else _) in E2.
  assert (A : o_step_h oa = o_step_h o /\ o_step_x oa = o_step_x o /\ o_step_y oa = o_step_y o /\ o_dense_rec oa = o_dense_rec o0 /\
     o_dense_index oa = o_dense_index o /\ o_dense_y oa = o_dense_y o /\ o_stiff_rec oa = o_stiff_rec o /\ o_dense_file_count oa = o_dense_file_count o /\
     o_step_file_count oa = o_step_file_count o + length (pick (o_step_file o0) [(h, x, y)]) /\
     o_log oa = o_log o ++ pick (is_some (o_step_cb o0)) [EvStepCb h x y] ++ pick (o_step_file o0) [EvStepFile (o_step_file_count o) h x y] /\
     o_initialized oa = o_initialized o0 /\ o_step_cb oa = o_step_cb o0 /\ o_step_file oa = o_step_file o0 /\ o_step_rec oa = o_step_rec o0 /\
     o_dense_cb oa = o_dense_cb o0 /\ o_dense_file oa = o_dense_file o0 /\ o_dense_x oa = o_dense_x o0 /\ o_yx_fn oa = o_yx_fn o0).
  { unfold oa. rewrite E1'. destruct (o_step_file o0), (is_some (o_step_cb o0)); cbn; rewrite ?app_nil_r, <- ?app_assoc; splits; auto; try lia. }
  destruct A as (A1 & A2 & A3 & A4 & A5 & A6 & A7 & A8 & A9 & A10 & B0 & B1 & B2 & B3 & B4 & B5 & B6 & B7).
  assert (Q1 : dense_events (o_log oa) = dense_events (o_log o)).
  { rewrite A10. unfold dense_events. rewrite !flat_map_app. destruct (is_some (o_step_cb o0)), (o_step_file o0); cbn; now rewrite app_nil_r. }
  assert (Q2 : dense_files (o_log oa) = dense_files (o_log o)).
  { rewrite A10. unfold dense_files. rewrite !flat_map_app. destruct (is_some (o_step_cb o0)), (o_step_file o0); cbn; now rewrite app_nil_r. }
  assert (Q3 : step_events (o_log oa) = step_events (o_log o) ++ pick (is_some (o_step_cb o0)) [(h, x, y)]).
  { rewrite A10. unfold step_events. rewrite !flat_map_app. destruct (is_some (o_step_cb o0)), (o_step_file o0); cbn; now rewrite ?app_nil_r. }
  assert (Q4 : step_files (o_log oa) = step_files (o_log o) ++ pick (o_step_file o0) [(o_step_file_count o, (h, x, y))]).
  { rewrite A10. unfold step_files. rewrite !flat_map_app. destruct (is_some (o_step_cb o0)), (o_step_file o0); cbn; now rewrite ?app_nil_r. }
  (* the record *)
  assert (F : exists sh sx sy ge, o2 = set_o_step_gerr ge (set_o_step_y sy (set_o_step_x sx (set_o_step_h sh oa))) /\ map fst sy = map fst (o_step_y o) /\
     (o_step_rec o0 = true -> sh = o_step_h o ++ [h] /\ sx = o_step_x o ++ [x] /\
       forall m ym', In (m, ym') sy -> exists ym, In (m, ym) (o_step_y o) /\ ym' = ym ++ [nth m y 0%R])).
  { unfold record_step in E2. rewrite B3 in E2. destruct (o_step_rec o0).
    - cbv zeta in E2. apply bind_ok in E2 as (sy & Ed & E2).
      match type of Ed with hm_map ?g _ = _ => change (hm_map g (o_step_y oa) = Ok sy) in Ed end.
      rewrite A3 in Ed. apply hm_map_inv in Ed as [D1 D2].
      assert (D3 : forall m ym', In (m, ym') sy -> exists ym, In (m, ym) (o_step_y o) /\ ym' = ym ++ [nth m y 0%R]).
      { intros m ym' Hin. destruct (D2 _ _ Hin) as (ym & Hy & Hg). exists ym. split; [exact Hy|].
        apply bind_ok in Hg as (v & Hv & Hg). apply (vget_ok_inv _ _ _ 0%R) in Hv as [V1 V2]. injection Hg as <-. now rewrite V2. }
      cbn [o_yx_fn set_o_step_y set_o_step_x set_o_step_h] in E2. destruct (o_yx_fn oa) as [g|].
      + apply bind_ok in E2 as (err & _ & E2). injection E2 as <-.
        exists (o_step_h oa ++ [h]), (o_step_x oa ++ [x]), sy, (o_step_gerr oa ++ [err]). splits; [reflexivity|exact D1|]. rewrite A1, A2. auto.
      + injection E2 as <-. exists (o_step_h oa ++ [h]), (o_step_x oa ++ [x]), sy, (o_step_gerr oa). splits; [destruct oa; reflexivity|exact D1|]. rewrite A1, A2. auto.
    - injection E2 as <-. exists (o_step_h oa), (o_step_x oa), (o_step_y oa), (o_step_gerr oa). splits; [destruct oa; reflexivity|now rewrite A3|discriminate]. }
  destruct F as (sh & sx & sy & ge & -> & F1 & F2).
  split; [|split; [exact A5|exact A7]].
  split; cbn [set_o_step_gerr set_o_step_y set_o_step_x set_o_step_h o_initialized o_step_cb o_step_file o_step_rec o_dense_cb o_dense_file o_dense_rec o_dense_x o_step_y o_dense_y o_yx_fn
    o_step_h o_step_x o_log o_step_file_count o_dense_file_count].
  - rewrite A6. splits; auto. now rewrite F1.
  - intros Hr. destruct (F2 Hr) as (-> & -> & F3). destruct (H2 Hr) as (-> & -> & G). unfold hs_of, xs_of. rewrite !map_app. cbn [map fst snd].
    splits; [reflexivity|reflexivity|]. intros m ym' Hin. destruct (F3 _ _ Hin) as (ym & Hy & ->). rewrite (G _ _ Hy). now rewrite map_app.
  - rewrite Q3, H3, pick_snoc, app_assoc. reflexivity.
  - rewrite Q4, H4, A9, H4'. destruct (o_step_file o0); cbn [pick length].
    + rewrite number_snoc, app_assoc, app_length. cbn [length]. split; [reflexivity|lia].
    + rewrite !app_nil_r. split; [reflexivity|lia].
  - rewrite Q1. exact H5.
  - rewrite Q2, A8. split; assumption.
  - rewrite A6. exact H7.
Qed.

(** the stations before the last one *)
Definition before_last (o : output) : list R := removelast (o_dense_x o).

Lemma removelast_length {A} (l : list A) : length (removelast l) = length l - 1.
Proof. induction l as [|a [|b l] IH]; [reflexivity|reflexivity|]. change (removelast (a :: b :: l)) with (a :: removelast (b :: l)). cbn [length] in *. lia. Qed.
Lemma removelast_nth {A} (l : list A) i d : i < length l - 1 -> nth i (removelast l) d = nth i l d.
Proof.
  revert i. induction l as [|a [|b l] IH]; intros i H; [reflexivity|cbn in H; lia|].
  change (removelast (a :: b :: l)) with (a :: removelast (b :: l)). destruct i; [reflexivity|]. cbn [nth]. apply IH. cbn [length] in *. lia.
Qed.
Lemma increasing_nth a l i : increasing_from a l -> i < length l -> (a < nth i l 0)%R.
Proof.
  revert a i. induction l as [|b l IH]; intros a i H Hi; [cbn in Hi; lia|]. destruct H as [H1 H2].
  destruct i; [exact H1|]. cbn [nth]. cbn in Hi. specialize (IH b i H2). assert (i < length l) by lia. specialize (IH H). lra.
Qed.

Section Emit.
Variable S : Type.
Variable M : method_ops S.

(** a dense point computed from the step that ended at (x, y) *)
Definition from_step (h x : R) (y : vec) (p : triple) : Prop :=
  fst (fst p) = h /\ (snd (fst p) <= x)%R /\ exists s, m_dense M s (snd (fst p)) x y h = Ok (snd p).

(** the stations emitted so far, [i] of them, are the first ones; the next one is still ahead of x *)
Definition upto (L : list R) (x : R) (ems : list triple) : Prop :=
  length ems <= length L /\ xs_of ems = firstn (length ems) L /\ (length ems < length L -> (x < nth (length ems) L 0)%R).

Lemma dense_loop_shows o0 steps s st h x y : forall fuel o ems o',
  shows o0 o steps ems -> o_dense_index o = length ems -> fuel = length (before_last o0) - length ems ->
  length ems <= length (before_last o0) -> xs_of ems = firstn (length ems) (before_last o0) ->
  dense_loop M fuel s st h x y o = Ok (false, o') ->
  exists l, shows o0 o' steps (ems ++ l) /\ o_dense_index o' = length (ems ++ l) /\ upto (before_last o0) x (ems ++ l) /\
    Forall (from_step h x y) l /\ o_stiff_rec o' = o_stiff_rec o.
Proof.
  induction fuel as [|fuel IH]; intros o ems o' Hs Hi Hf Hl Hx E.
  { cbn in E. injection E as <-. exists []. rewrite app_nil_r. splits; auto. unfold upto. splits; [exact Hl|exact Hx|lia]. }
  cbn [dense_loop] in E. apply bind_ok in E as (xo & Ex & E).
  rewrite Hi in Ex. apply (vget_ok_inv _ _ _ 0%R) in Ex as [Lx Nx].
  assert (Hdx : o_dense_x o = o_dense_x o0) by (destruct Hs as [H1 _ _ _ _ _ _]; tauto). rewrite Hdx in Lx, Nx.
  assert (Nx' : nth (length ems) (before_last o0) 0%R = xo).
  { unfold before_last in *. rewrite removelast_nth; [exact Nx|]. rewrite removelast_length in Hf. lia. }
  destruct (Rltb_spec x xo) as [Lt|Ge].
  { injection E as <-. exists []. rewrite app_nil_r. splits; auto. unfold upto. splits; [exact Hl|exact Hx|]. intros _. rewrite Nx'. exact Lt. }
  apply bind_ok in E as (yo & Ey & E). apply bind_ok in E as ([stop o1] & E1 & E). destruct stop; [discriminate|].
  apply bind_ok in E as (o2 & E2 & E).
  destruct (emit_shows _ _ _ _ _ _ _ _ _ _ Hs Hi E1 E2) as (G1 & G2 & G3).
  assert (Hlt : length ems < length (before_last o0)) by lia.
  destruct (IH (set_o_dense_index (o_dense_index o2 + 1) o2) (ems ++ [(h, xo, yo)]) o') as (l & K1 & K2 & K3 & K4 & K5).
  - now apply shows_index.
  - rewrite app_length. cbn. lia.
  - rewrite app_length. cbn [length]. lia.
  - rewrite app_length. cbn [length]. lia.
  - unfold xs_of in *. rewrite map_app, Hx, app_length. cbn [map fst snd length]. rewrite Nat.add_1_r.
    rewrite (firstn_snoc _ _ 0%R) by exact Hlt. now rewrite Nx'.
  - exact E.
  - exists ((h, xo, yo) :: l). rewrite <- app_assoc in K1, K2, K3. cbn [app] in K1, K2, K3. splits; auto.
    + constructor; [|exact K4]. unfold from_step. cbn. splits; [reflexivity|exact Ge|]. eauto.
    + rewrite K5. exact G3.
Qed.

Definition dense_state (o0 o : output) (x : R) (ems : list triple) : Prop :=
  if with_dense_output o0 then o_dense_index o = length ems /\ upto (before_last o0) x ems else ems = [].

Lemma with_dense_shows o0 o steps ems : shows o0 o steps ems -> with_dense_output o = with_dense_output o0.
Proof. intros [H1 _ _ _ _ _ _]. unfold with_dense_output. destruct H1 as (_ & _ & _ & _ & -> & -> & -> & _). reflexivity. Qed.

(** `execute` after an accepted step *)
Lemma execute_shows o0 o steps ems s w h x y o' xp :
  shows o0 o steps ems -> dense_state o0 o xp ems -> 0 < n_accepted (w_stats w) ->
  o_execute M s w h x y o = Ok (false, o') ->
  exists l, shows o0 o' (steps ++ [(h, x, y)]) (ems ++ l) /\ dense_state o0 o' x (ems ++ l) /\ Forall (from_step h x y) l.
Proof.
  intros Hs Hd Hn E. unfold o_execute in E. apply bind_ok in E as ([] & _ & E).
  apply bind_ok in E as ([stop o1] & E1 & E). destruct stop; [discriminate|]. cbv zeta in E.
  apply bind_ok in E as (o2 & E2 & E).
  destruct (step_shows _ _ _ _ _ _ _ _ _ _ Hs E1 E2) as (G1 & G2 & G3).
  apply bind_ok in E as ([stop o3] & E3 & E). destruct stop; [discriminate|]. injection E as <-.
  unfold dense_part in E3. rewrite (with_dense_shows _ _ _ _ G1) in E3. unfold dense_state in *.
  destruct (with_dense_output o0) eqn:Ew.
  - destruct Hd as (D1 & D2 & D3 & D4). replace (n_accepted (w_stats w) =? 0) with false in E3 by (symmetry; apply Nat.eqb_neq; lia).
    apply bind_ok in E3 as (n_out & En & E3).
    assert (Hdx : o_dense_x o2 = o_dense_x o0) by (destruct G1 as [H1 _ _ _ _ _ _]; tauto).
    rewrite Hdx in En. unfold usub in En. destruct (1 <=? length (o_dense_x o0)); [|discriminate]. injection En as <-.
    assert (F1 : o_dense_index o2 = length ems) by congruence.
    assert (F2 : length (o_dense_x o0) - 1 - o_dense_index o2 = length (before_last o0) - length ems)
      by (rewrite F1; unfold before_last; rewrite removelast_length; reflexivity).
    destruct (dense_loop_shows o0 (steps ++ [(h, x, y)]) s (w_stats w) h x y _ _ ems _ G1 F1 F2 D2 D3 E3)
      as (l & K1 & K2 & K3 & K4 & K5).
    destruct (shows_stiff _ _ _ _ w K1) as [Z1 Z2].
    exists l. splits; auto. now rewrite Z2.
  - injection E3 as <-. subst ems. exists []. rewrite app_nil_r. destruct (shows_stiff _ _ _ _ w G1) as [Z1 Z2]. splits; auto.
Qed.

(** `execute` before the first step *)
Lemma execute_first_shows o0 s w h x y o' :
  shows o0 o0 [] [] -> n_accepted (w_stats w) = 0 ->
  o_execute M s w h x y o0 = Ok (false, o') ->
  exists ems, shows o0 o' [(h, x, y)] ems /\
    if with_dense_output o0 then o_dense_index o' = 1 /\ ems = [(h, x, y)] else ems = [].
Proof.
  intros Hs Hn E. unfold o_execute in E. apply bind_ok in E as ([] & _ & E).
  apply bind_ok in E as ([stop o1] & E1 & E). destruct stop; [discriminate|]. cbv zeta in E.
  apply bind_ok in E as (o2 & E2 & E).
  destruct (step_shows _ _ _ _ _ _ _ _ _ _ Hs E1 E2) as (G1 & G2 & G3). cbn [app] in G1.
  apply bind_ok in E as ([stop o3] & E3 & E). destruct stop; [discriminate|]. injection E as <-.
  unfold dense_part in E3. rewrite (with_dense_shows _ _ _ _ G1) in E3.
  destruct (with_dense_output o0) eqn:Ew.
  - rewrite Hn in E3. cbn [Nat.eqb] in E3. cbv zeta in E3.
    apply bind_ok in E3 as ([stop o4] & E4 & E3). destruct stop; [discriminate|]. apply bind_ok in E3 as (o5 & E5 & E3). injection E3 as <-.
    pose proof (shows_index _ _ _ _ 0 G1) as G1'.
    destruct (emit_shows _ _ _ _ _ _ _ _ _ _ G1' eq_refl E4 E5) as (K1 & K2 & K3). cbn [app length] in *.
    pose proof (shows_index _ _ _ _ (o_dense_index o5 + 1) K1) as K1'.
    destruct (shows_stiff _ _ _ _ w K1') as [Z1 Z2].
    exists [(h, x, y)]. splits; auto. rewrite Z2. cbn. lia.
  - injection E3 as <-. exists []. destruct (shows_stiff _ _ _ _ w G1) as [Z1 Z2]. splits; auto.
Qed.

(** `last` *)
Lemma last_shows o0 o steps ems w h x y o' xp :
  shows o0 o steps ems -> dense_state o0 o xp ems -> o_last w h x y o = Ok o' ->
  if with_dense_output o0 then length ems = length (before_last o0) /\ shows o0 o' steps (ems ++ [(h, x, y)])
  else shows o0 o' steps ems.
Proof.
  intros Hs Hd E. unfold o_last in E. cbv zeta in E.
  assert (Hc : forall o n, shows o0 o steps ems -> shows o0 (log (EvStepCount n) o) steps ems).
  { clear. intros o n [H1 H2 H3 H4 H5 H6 H7]. split; try assumption; cbn [log set_o_log o_log o_step_file_count o_dense_file_count o_step_y];
    unfold step_events, step_files, dense_events, dense_files; rewrite flat_map_app; cbn [flat_map]; rewrite app_nil_r; assumption. }
  set (oa := if o_step_file o then _ else o) in E.
  assert (Ha : shows o0 oa steps ems /\ o_dense_index oa = o_dense_index o).
  { unfold oa. destruct (o_step_file o); split; auto. }
  destruct Ha as [Ha Ha2].
  rewrite (with_dense_shows _ _ _ _ Ha) in E. unfold dense_state in Hd. destruct (with_dense_output o0) eqn:Ew.
  - destruct Hd as (D1 & D2 & D3 & D4).
    apply bind_ok in E as (n & En & E). apply bind_ok in E as ([] & Eas & E). apply bind_ok in E as ([stp o1] & E1 & E).
    assert (Hdx : o_dense_x oa = o_dense_x o0) by (destruct Ha as [H1 _ _ _ _ _ _]; tauto).
    rewrite Hdx in En. unfold usub in En. destruct (1 <=? length (o_dense_x o0)); [|discriminate]. injection En as <-.
    unfold assert_ in Eas. destruct (Nat.eqb_spec (o_dense_index oa) (length (o_dense_x o0) - 1)) as [Ei|]; [|discriminate].
    split; [unfold before_last; rewrite removelast_length; congruence|].
    (* the flag returned by the callback is ignored *)
    assert (Eo1 : o1 = if is_some (o_dense_cb oa) then log (EvDenseCb h x y) oa else oa).
    { unfold run_cb in E1. destruct (o_dense_cb oa) as [f|]; [apply bind_ok in E1 as (b & _ & E1)|]; injection E1 as _ <-; reflexivity. }
    (* compare with a recorder whose callback never stops *)
    set (q := (match o_dense_cb oa with Some f => Some (fun (_ : stats) (_ _ : R) (_ : vec) => Ok false) | None => None end) : option callback).
    set (z0 := set_o_dense_cb q o0). set (za := set_o_dense_cb q oa).
    assert (Hq : is_some q = is_some (o_dense_cb o0)).
    { unfold q. destruct Ha as [H1 _ _ _ _ _ _]. destruct H1 as (_ & _ & _ & _ & -> & _). destruct (o_dense_cb o0); reflexivity. }
    assert (Hza : shows z0 za steps ems).
    { destruct Ha as [H1 H2 H3 H4 H5 H6 H7]. unfold z0, za. split; try assumption; [cbn; tauto|]. cbn [o_dense_cb set_o_dense_cb]. rewrite Hq. exact H5. }
    set (w1 := write_dense_file h x y o1) in E.
    set (w2 := if o_dense_file w1 then log (EvDenseCount (o_dense_file_count w1)) w1 else w1) in E.
    assert (Erec : exists oz, record_dense y w1 = Ok oz /\ o' = if o_dense_file w1 then log (EvDenseCount (o_dense_file_count w1)) oz else oz).
    { unfold record_dense in *. unfold w2 in E. destruct (o_dense_file w1) eqn:Efw.
      - cbn [o_dense_rec log set_o_log o_dense_index o_dense_y] in E. destruct (o_dense_rec w1).
        + apply bind_ok in E as (dy & Ed & E). injection E as <-. change (o_dense_index (log _ w1)) with (o_dense_index w1) in Ed. change (o_dense_y (log _ w1)) with (o_dense_y w1) in Ed. rewrite Ed. cbn [bind]. eexists. split; reflexivity.
        + injection E as <-. eexists. split; reflexivity.
      - destruct (o_dense_rec w1).
        + apply bind_ok in E as (dy & Ed & E). injection E as <-. rewrite Ed. cbn [bind]. eexists. split; reflexivity.
        + injection E as <-. eexists. split; reflexivity. }
    destruct Erec as (oz & Er & ->).
    assert (Er' : record_dense y (write_dense_file h x y (set_o_dense_cb q o1)) = Ok (set_o_dense_cb q oz)).
    { clear - Er. unfold w1 in Er. unfold record_dense, write_dense_file in *. cbn [o_dense_file set_o_dense_cb].
      destruct (o_dense_file o1); cbn in *; (destruct (o_dense_rec o1); [apply bind_ok in Er as (dy & Ed & Er); rewrite Ed; cbn; injection Er as <-; reflexivity|injection Er as <-; reflexivity]). }
    assert (Erun' : run_cb (o_dense_cb za) (w_stats w) h x y (EvDenseCb h x y) za = Ok (false, set_o_dense_cb q o1)).
    { unfold za. cbn [o_dense_cb set_o_dense_cb]. rewrite Eo1. unfold q, run_cb. destruct (o_dense_cb oa); reflexivity. }
    assert (Fi : o_dense_index za = length ems) by (cbn; congruence).
    destruct (emit_shows z0 za steps ems (w_stats w) h x y _ _ Hza Fi Erun' Er') as (K1 & _ & _).
    assert (K : shows o0 oz steps (ems ++ [(h, x, y)])).
    { destruct K1 as [H1 H2 H3 H4 H5 H6 H7]. unfold z0 in *. cbn in H1, H2, H3, H4, H5, H6, H7. rewrite Hq in H5. split; try assumption.
      assert (o_dense_cb oz = o_dense_cb o0).
      { assert (o_dense_cb oz = o_dense_cb oa).
        { clear - Er Eo1. unfold w1, record_dense, write_dense_file in Er. 
          destruct (o_dense_file o1); cbn in Er; (destruct (o_dense_rec o1); [apply bind_ok in Er as (dy & Ed & Er); injection Er as <-|injection Er as <-]);
          cbn; rewrite Eo1; destruct (is_some (o_dense_cb oa)); reflexivity. }
        destruct Ha as [A1 _ _ _ _ _ _]. destruct A1 as (_ & _ & _ & _ & A1 & _). congruence. }
      tauto. }
    destruct (o_dense_file w1); [|exact K].
    destruct K as [H1 H2 H3 H4 H5 H6 H7]. split; try assumption; cbn [log set_o_log o_log o_step_file_count o_dense_file_count o_step_y];
    unfold step_events, step_files, dense_events, dense_files; rewrite flat_map_app; cbn [flat_map]; rewrite app_nil_r; assumption.
  - injection E as <-. exact Ha.
Qed.
End Emit.

(** * The stations *)

(** a recorder that was never initialized holds no steps (true of a new one and kept by all setters) *)
Definition fresh_or_used (o : output) : Prop :=
  o_initialized o = false -> o_step_h o = [] /\ o_step_x o = [] /\ forall m ym, In (m, ym) (o_step_y o) -> ym = [].

Lemma fresh_new : fresh_or_used output_new.
Proof. intros _. cbn. splits; auto. intros m ym []. Qed.
Lemma fresh_set_step_recording sel o : fresh_or_used o -> fresh_or_used (set_step_recording sel o).
Proof.
  intros H Hi. destruct (H Hi) as (A & B & C). cbn. splits; auto.
  assert (G : forall sel l, (forall m ym, In (m, ym) l -> ym = []) -> forall m ym, In (m, ym) (fold_left (fun l m => hm_insert m l) sel l) -> ym = @nil R).
  { clear. induction sel as [|a sel IH]; intros l Hl m ym Hin; [now apply Hl in Hin|]. cbn in Hin. apply IH in Hin; [exact Hin|].
    clear -Hl. intros m ym Hin. unfold hm_insert in Hin. apply in_app_or in Hin as [Hin|[Hin|[]]]; [|injection Hin; auto].
    apply filter_In in Hin as [Hin _]. now apply Hl in Hin. }
  apply G. exact C.
Qed.
Lemma fresh_set_dense_recording sel o : fresh_or_used o -> fresh_or_used (set_dense_recording sel o).
Proof. intros H Hi. exact (H Hi). Qed.
Lemma fresh_set_dense_x_out xs o : fresh_or_used o -> fresh_or_used (snd (set_dense_x_out xs o)).
Proof. intros H. unfold set_dense_x_out. destruct (dense_x_out_loop _ _ _ _) as [[[]|m|] dx]; exact H. Qed.

(** a recorder as the setters leave it *)
Definition dense_wf (o : output) : Prop :=
  length (o_dense_x o) <> 1 /\ forall h, o_dense_h_out o = Some h -> (10 * EPSILON < h)%R.

Lemma dense_wf_new : dense_wf output_new.
Proof. split; cbn; [lia|discriminate]. Qed.
Lemma dense_x_out_loop_spec : forall xs k prev dx r dx', dense_x_out_loop k prev xs dx = (r, dx') -> k + length xs + 2 = length dx ->
  length dx' = length dx /\
  (r = Ok tt -> dx' = firstn (1 + k) dx ++ xs ++ skipn (1 + k + length xs) dx /\
     match prev with Some p => increasing_from p xs | None => match xs with [] => True | x :: t => increasing_from x t end end) /\ r <> Panic.
Proof.
  induction xs as [|x xs IH]; intros k prev dx r dx' E Hl; cbn [dense_x_out_loop] in E.
  - injection E as <- <-. splits; [reflexivity| |discriminate]. intros _. cbn [length app]. rewrite Nat.add_0_r, firstn_skipn. split; [reflexivity|now destruct prev].
  - cbn [length] in Hl.
    assert (Main : forall q, dense_x_out_loop (S k) (Some x) xs (upd dx (1 + k) x) = (r, dx') -> (match q with Some p => (p < x)%R | None => True end) ->
       length dx' = length dx /\ (r = Ok tt -> dx' = firstn (1 + k) dx ++ (x :: xs) ++ skipn (1 + k + length (x :: xs)) dx /\
         match q with Some p => increasing_from p (x :: xs) | None => increasing_from x xs end) /\ r <> Panic).
    { intros q E' Hq. destruct (IH _ _ _ _ _ E') as (A & B & C); [rewrite upd_length; lia|]. rewrite upd_length in A.
      splits; [exact A| |exact C]. intros Hr. destruct (B Hr) as [B1 B2]. split.
      - rewrite B1. cbn [app length].
        assert (F1 : firstn (1 + S k) (upd dx (1 + k) x) = firstn (1 + k) dx ++ [x]).
        { change (1 + S k) with (S (1 + k)). rewrite (firstn_snoc _ _ 0%R) by (rewrite upd_length; lia). rewrite nth_upd_eq by lia. f_equal.
          clear. generalize (1 + k). intros n. revert n. induction dx as [|a dx IHd]; intros [|n]; cbn; try reflexivity. now rewrite IHd. }
        assert (F2 : skipn (1 + S k + length xs) (upd dx (1 + k) x) = skipn (1 + k + S (length xs)) dx).
        { replace (1 + S k + length xs) with (S (1 + k) + length xs) by lia. replace (1 + k + S (length xs)) with (S (1 + k) + length xs) by lia.
          generalize (1 + k). clear. intros n. revert n. induction dx as [|a dx IHd]; intros [|n]; cbn; try reflexivity. apply IHd. }
        rewrite F1, F2, <- app_assoc. reflexivity.
      - destruct q; [split; assumption|exact B2]. }
    destruct prev as [p|].
    + destruct (Rltb_spec x p); [injection E as <- <-; splits; [reflexivity|discriminate|discriminate]|].
      destruct (Rleb_spec (x - p) (10 * EPSILON)); [injection E as <- <-; splits; [reflexivity|discriminate|discriminate]|].
      apply (Main (Some p) E). pose proof eps_pos. lra.
    + apply (Main None E I).
Qed.
Lemma dense_wf_x_out xs o : dense_wf o -> dense_wf (snd (set_dense_x_out xs o)).
Proof.
  intros [H1 H2]. unfold set_dense_x_out. destruct (dense_x_out_loop 0 None xs (repeat 0%R (length xs + 2))) as [r dx] eqn:E.
  apply dense_x_out_loop_spec in E as (A & _); [|rewrite repeat_length; lia]. rewrite repeat_length in A.
  destruct r as [[]|m|]; cbn; (split; cbn; [lia|auto; discriminate]).
Qed.
Lemma dense_wf_h_out h o o' : dense_wf o -> set_dense_h_out h o = Ok o' -> dense_wf o'.
Proof.
  intros [H1 H2]. unfold set_dense_h_out. destruct (Rleb_spec h (10 * EPSILON)); [discriminate|]. intros E. injection E as <-.
  split; cbn; [exact H1|]. intros h' E. injection E as <-. assumption.
Qed.

(** number of stations of the uniform mode *)
Definition n_uniform (x0 x1 h : R) : nat := Nat.max 2 (trunc_usize ((x1 + EPS_X1_H_OUT - x0) / h) + 1).

(** C55: uniform mode: x0, x0 + h_out, ... and x1 *)
Theorem C55_uniform_stations x0 x1 o h : o_dense_h_out o = Some h ->
  dense_stations x0 x1 o = Ok (map (fun i => (x0 + INR i * h)%R) (seq 0 (n_uniform x0 x1 h - 1)) ++ [x1]).
Proof.
  intros Eh. unfold dense_stations. rewrite Eh. cbv zeta. fold (n_uniform x0 x1 h). set (n := n_uniform x0 x1 h).
  assert (Hn : 2 <= n) by (unfold n, n_uniform; lia).
  set (l := if length (o_dense_x o) =? n then _ else _).
  assert (Hl : length l = n).
  { unfold l. destruct (Nat.eqb_spec (length (o_dense_x o)) n) as [L|L]; [exact L|]. unfold resize. rewrite app_length, firstn_length, repeat_length. lia. }
  rewrite vset_ok by lia. cbn [bind]. rewrite vset_ok by (rewrite upd_length; lia). cbn [bind].
  destruct (for_range_inv (fun i (q : list R) => length q = n /\ nth (n - 1) q 0%R = x1 /\ forall j, j < i -> nth j q 0%R = (x0 + INR j * h)%R)
    (fun i dx => p <- vget dx (i - 1) ;; vset dx i (p + h)%R) 1 (n - 1) (upd (upd l 0 x0) (n - 1) x1)) as (q & Eq & Q1 & Q2 & Q3).
  - lia.
  - rewrite !upd_length. splits; [exact Hl|apply nth_upd_eq; rewrite upd_length; lia|]. intros j Hj. assert (j = 0) by lia. subst.
    rewrite nth_upd_ne by lia. rewrite nth_upd_eq by lia. cbn. lra.
  - intros i q Hi (A & B & C). exists (upd q i (nth (i - 1) q 0 + h)%R). rewrite (vget_ok _ _ 0%R) by lia. cbn [bind]. rewrite vset_ok by lia.
    splits; [reflexivity|now rewrite upd_length|rewrite nth_upd_ne by lia; exact B|].
    intros j Hj. destruct (Nat.eq_dec j i) as [->|Ne].
    + rewrite nth_upd_eq by lia. rewrite C by lia. replace i with (S (i - 1)) at 2 by lia. rewrite S_INR. lra.
    + rewrite nth_upd_ne by lia. apply C. lia.
  - rewrite Eq. f_equal. apply (nth_ext_d _ _ 0%R).
    + rewrite app_length, map_length, seq_length. cbn [length]. lia.
    + intros j Hj. destruct (Nat.eq_dec j (n - 1)) as [->|Ne].
      * rewrite app_nth2 by (rewrite map_length, seq_length; lia). rewrite map_length, seq_length, Nat.sub_diag. exact Q2.
      * rewrite Q3 by lia. symmetry. rewrite app_nth1 by (rewrite map_length, seq_length; lia). rewrite (nth_indep _ 0%R (x0 + INR 0 * h)%R) by (rewrite map_length, seq_length; lia).
        rewrite (map_nth (fun i => (x0 + INR i * h)%R)), seq_nth by lia. reflexivity.
Qed.

(** C55: user-defined mode: x0, the given stations, x1; or an error if they are not inside (x0, x1) *)
Theorem C55_user_stations x0 x1 xs o o' : set_dense_x_out xs o = (Ok tt, o') ->
  dense_stations x0 x1 o' =
    match xs with
    | [] => Ok [x0; x1]
    | a :: _ => if Rleb a x0 then Err "the first interior x_out for dense output must be > x0"
                else if Rleb x1 (last xs 0%R) then Err "the last interior x_out for dense output must be < x1"
                else Ok (x0 :: xs ++ [x1])
    end /\
  match xs with [] => True | a :: t => increasing_from a t end.
Proof.
  unfold set_dense_x_out. destruct (dense_x_out_loop 0 None xs (repeat 0%R (length xs + 2))) as [r dx] eqn:E.
  apply dense_x_out_loop_spec in E as (A & B & _); [|rewrite repeat_length; lia]. rewrite repeat_length in A.
  destruct r as [[]|m|]; [|discriminate|discriminate]. intros E. injection E as <-. destruct (B eq_refl) as [B1 B2]. split; [|exact B2].
  assert (Hdx : dx = 0%R :: xs ++ [0%R]).
  { rewrite B1. replace (length xs + 2) with (1 + (length xs + 1)) by lia. cbn [repeat plus firstn app]. f_equal. f_equal.
    change (1 + 0 + length xs) with (S (length xs)). cbn [skipn].
    clear. rewrite repeat_app. induction xs as [|a xs IH]; [reflexivity|]. cbn. exact IH. }
  unfold dense_stations. cbn [o_dense_h_out set_o_dense_h_out set_o_dense_x o_dense_x]. rewrite A.
  replace (length xs + 2 =? 0) with false by (symmetry; apply Nat.eqb_neq; lia). cbv zeta. rewrite A.
  rewrite vset_ok by lia. cbn [bind]. rewrite vset_ok by (rewrite upd_length; lia). cbn [bind].
  assert (Hu : upd (upd dx 0 x0) (length xs + 2 - 1) x1 = x0 :: xs ++ [x1]).
  { rewrite Hdx. cbn [upd]. replace (length xs + 2 - 1) with (S (length xs)) by lia. cbn [upd]. f_equal.
    clear. induction xs as [|a xs IH]; [reflexivity|]. cbn. now rewrite IH. }
  rewrite Hu. destruct xs as [|a t]; [reflexivity|]. cbn [length].
  replace (2 <? S (length t) + 2) with true by (symmetry; apply Nat.ltb_lt; lia).
  cbn [vget nth_error app bind]. destruct (Rleb a x0); [reflexivity|].
  replace (S (length t) + 2 - 2) with (S (length t)) by lia.
  rewrite (vget_ok _ _ 0%R) by (cbn [length]; rewrite app_length; cbn; lia). cbn [bind].
  replace (nth (S (length t)) (x0 :: a :: t ++ [x1]) 0%R) with (last (a :: t) 0%R); [reflexivity|].
  change (nth (S (length t)) (x0 :: a :: t ++ [x1]) 0%R) with (nth (length t) (a :: t ++ [x1]) 0%R).
  clear. revert a. induction t as [|b t IH]; intros a; [reflexivity|].
  change (last (a :: b :: t) 0%R) with (last (b :: t) 0%R). rewrite (IH b). reflexivity.
Qed.

(** no stations given: x0 and x1 *)
Theorem C55_default_stations x0 x1 o : o_dense_h_out o = None -> o_dense_x o = [] -> dense_stations x0 x1 o = Ok [x0; x1].
Proof. intros E1 E2. unfold dense_stations. now rewrite E1, E2. Qed.

(** the stations of any mode *)
Lemma dense_stations_shape x0 x1 o dx : dense_wf o -> dense_stations x0 x1 o = Ok dx ->
  2 <= length dx /\ nth 0 dx 0%R = x0 /\ last dx 0%R = x1 /\ (2 < length dx -> (x0 < nth 1 dx 0)%R) /\
  (o_dense_h_out o = None -> 2 < length dx -> (nth (length dx - 2) dx 0 < x1)%R).
Proof.
  intros [W1 W2] E. destruct (o_dense_h_out o) as [h|] eqn:Eh.
  - rewrite (C55_uniform_stations _ _ _ _ Eh) in E. injection E as <-. specialize (W2 h eq_refl). pose proof eps_pos.
    rewrite app_length, map_length, seq_length. cbn [length]. set (n := n_uniform x0 x1 h). assert (2 <= n) by (unfold n, n_uniform; lia).
    splits; [lia| |apply last_snoc| |discriminate].
    + replace (n - 1) with (S (n - 2)) by lia. cbn. lra.
    + intros Hl. replace (n - 1) with (S (S (n - 3))) by lia. cbn. lra.
  - unfold dense_stations in E. rewrite Eh in E. cbv zeta in E. set (l := if length (o_dense_x o) =? 0 then _ else _) in E.
    assert (Hl : 2 <= length l). { unfold l. destruct (Nat.eqb_spec (length (o_dense_x o)) 0); [cbn; lia|lia]. }
    rewrite vset_ok in E by lia. cbn [bind] in E. rewrite vset_ok in E by (rewrite upd_length; lia). cbn [bind] in E.
    set (q := upd (upd l 0 x0) (length l - 1) x1) in *.
    assert (Hq : length q = length l) by (unfold q; now rewrite !upd_length).
    assert (Hd : dx = q /\ (2 < length l -> (x0 < nth 1 q 0)%R) /\ (2 < length l -> (nth (length l - 2) q 0 < x1)%R)).
    { destruct (Nat.ltb_spec 2 (length l)); [|injection E as <-; splits; [reflexivity|lia|lia]].
      rewrite (vget_ok _ _ 0%R) in E by lia. cbn [bind] in E. destruct (Rleb_spec (nth 1 q 0%R) x0); [discriminate|].
      rewrite (vget_ok _ _ 0%R) in E by lia. cbn [bind] in E. destruct (Rleb_spec x1 (nth (length l - 2) q 0%R)); [discriminate|].
      injection E as <-. splits; [reflexivity|auto|auto]. }
    destruct Hd as (-> & D1 & D2). rewrite Hq. splits; auto.
    + unfold q. rewrite nth_upd_ne by lia. apply nth_upd_eq. lia.
    + assert (Hlast : forall z : list R, z <> [] -> last z 0%R = nth (length z - 1) z 0%R).
      { clear. induction z as [|a [|b z] IH]; intros H; [congruence|reflexivity|].
        change (last (a :: b :: z) 0%R) with (last (b :: z) 0%R). rewrite IH by discriminate. cbn [length].
        replace (S (S (length z)) - 1) with (S (length z)) by lia. replace (S (length z) - 1) with (length z) by lia. reflexivity. }
      rewrite Hlast by (intros F; rewrite F in Hq; cbn in Hq; lia). rewrite Hq. unfold q. apply nth_upd_eq. rewrite upd_length. lia.
Qed.

Lemma initialize_shows x0 x1 st o o0 : fresh_or_used o -> o_initialize x0 x1 st o = Ok o0 ->
  shows o0 o0 [] [] /\ o_log o0 = o_log o /\ o_step_cb o0 = o_step_cb o /\ o_step_file o0 = o_step_file o /\ o_step_rec o0 = o_step_rec o /\
  o_dense_cb o0 = o_dense_cb o /\ o_dense_file o0 = o_dense_file o /\ o_dense_rec o0 = o_dense_rec o /\
  o_step_file_count o0 = o_step_file_count o /\ o_dense_file_count o0 = o_dense_file_count o /\
  map fst (o_step_y o0) = map fst (o_step_y o) /\ map fst (o_dense_y o0) = map fst (o_dense_y o) /\
  (with_dense_output o = true -> dense_stations x0 x1 o = Ok (o_dense_x o0)).
Proof.
  intros Hf E. unfold o_initialize in E. apply bind_ok in E as ([] & _ & E). cbv zeta in E.
  set (o1 := set_o_stiff_rec st o) in E.
  set (o2 := if o_initialized o1 && o_step_rec o1 then _ else o1) in E.
  set (o3 := if o_initialized o2 && o_stiff_rec o2 then _ else o2) in E.
  assert (A : o_log o3 = o_log o /\ o_step_cb o3 = o_step_cb o /\ o_step_file o3 = o_step_file o /\ o_step_rec o3 = o_step_rec o /\
    o_dense_cb o3 = o_dense_cb o /\ o_dense_file o3 = o_dense_file o /\ o_dense_rec o3 = o_dense_rec o /\
    o_step_file_count o3 = o_step_file_count o /\ o_dense_file_count o3 = o_dense_file_count o /\ map fst (o_step_y o3) = map fst (o_step_y o) /\
    o_dense_y o3 = o_dense_y o /\ dense_stations x0 x1 o3 = dense_stations x0 x1 o /\ with_dense_output o3 = with_dense_output o /\
    (o_step_rec o = true -> o_step_h o3 = [] /\ o_step_x o3 = [] /\ forall m ym, In (m, ym) (o_step_y o3) -> ym = [])).
  { assert (B : o_log o2 = o_log o /\ o_step_cb o2 = o_step_cb o /\ o_step_file o2 = o_step_file o /\ o_step_rec o2 = o_step_rec o /\
    o_dense_cb o2 = o_dense_cb o /\ o_dense_file o2 = o_dense_file o /\ o_dense_rec o2 = o_dense_rec o /\
    o_step_file_count o2 = o_step_file_count o /\ o_dense_file_count o2 = o_dense_file_count o /\ map fst (o_step_y o2) = map fst (o_step_y o) /\
    o_dense_y o2 = o_dense_y o /\ dense_stations x0 x1 o2 = dense_stations x0 x1 o /\ with_dense_output o2 = with_dense_output o /\
    (o_step_rec o = true -> o_step_h o2 = [] /\ o_step_x o2 = [] /\ forall m ym, In (m, ym) (o_step_y o2) -> ym = [])).
    { unfold o2. change (o_initialized o1) with (o_initialized o). change (o_step_rec o1) with (o_step_rec o).
      destruct (o_initialized o) eqn:Ei; [destruct (o_step_rec o) eqn:Er|]; cbn [andb].
      - cbn. splits; auto. { rewrite map_map. reflexivity. }
        intros _. splits; auto. intros m ym Hin. apply in_map_iff in Hin as (p & Hp & _). congruence.
      - unfold o1. cbn. splits; auto. discriminate.
      - unfold o1. cbn. splits; auto. }
    unfold o3. destruct (o_initialized o2 && o_stiff_rec o2); exact B. }
  clearbody o3. clear o2 o1.
  destruct A as (A1 & A2 & A3 & A4 & A5 & A6 & A7 & A8 & A9 & A10 & A11 & A12 & A13 & A14).
  apply bind_ok in E as (o4 & E4 & E). injection E as <-.
  assert (B : o_log o4 = o_log o /\ o_step_cb o4 = o_step_cb o /\ o_step_file o4 = o_step_file o /\ o_step_rec o4 = o_step_rec o /\
    o_dense_cb o4 = o_dense_cb o /\ o_dense_file o4 = o_dense_file o /\ o_dense_rec o4 = o_dense_rec o /\
    o_step_file_count o4 = o_step_file_count o /\ o_dense_file_count o4 = o_dense_file_count o /\ o_step_h o4 = o_step_h o3 /\ o_step_x o4 = o_step_x o3 /\ o_step_y o4 = o_step_y o3 /\
    map fst (o_dense_y o4) = map fst (o_dense_y o) /\ (with_dense_output o = true -> dense_stations x0 x1 o = Ok (o_dense_x o4)) /\
    (with_dense_output o = true -> forall m ym, In (m, ym) (o_dense_y o4) -> length ym = length (o_dense_x o4))).
  { rewrite A13 in E4. destruct (with_dense_output o).
    - apply bind_ok in E4 as (dx & Ed & E4). cbv zeta in E4. injection E4 as <-. rewrite A12 in Ed. cbn. splits; auto.
      + rewrite map_map. cbn. rewrite A11. reflexivity.
      + intros _ m ym Hin. apply in_map_iff in Hin as ((m', l) & Hp & _). cbn in Hp. injection Hp as _ <-.
        destruct (Nat.eqb_spec (length l) (length dx)) as [L|L]; [exact L|]. unfold resize. rewrite app_length, firstn_length, repeat_length. lia.
    - injection E4 as <-. splits; auto; try discriminate. now rewrite A11. }
  destruct B as (B1 & B2 & B3 & B4 & B5 & B6 & B7 & B8 & B9 & B10 & B11 & B12 & B13 & B14 & B15).
  cbn. splits; auto; [|now rewrite B12].
  split; cbn; auto.
  - splits; reflexivity.
  - rewrite B4, B10, B11, B12. intros Hr. destruct (A14 Hr) as (Z1 & Z2 & Z3). splits; auto.
  - destruct (is_some _); now rewrite app_nil_r.
  - destruct (o_step_file o4); rewrite app_nil_r; cbn; auto.
  - destruct (is_some _); now rewrite app_nil_r.
  - destruct (o_dense_file o4); rewrite app_nil_r; cbn; auto.
  - rewrite B7. intros Hr m ym Hin. split; [|intros i Hi; lia]. apply (B15) with (m := m); [|exact Hin].
    unfold with_dense_output. rewrite Hr. apply orb_true_r.
Qed.

Section Solve.
Variable S : Type.
Variable M : method_ops S.
Variable all_finite : vec -> res unit.
Variable P : params.
Hypothesis CT : contract M.

(** a dense point between the ends of the accepted step it was computed from *)
Definition interpolated (steps : list triple) (p : triple) : Prop :=
  exists h x y s, In (h, x, y) steps /\ fst (fst p) = h /\ (x - h < snd (fst p) <= x)%R /\ m_dense M s (snd (fst p)) x y h = Ok (snd p).

(** invariant of the loops: [first] is the first output *)
Definition drv_inv (o0 : output) (first : triple) (d : dstate S) : Prop :=
  exists o ems, d_out d = Some o /\ shows o0 o (first :: accepted_steps (d_tr d)) ems /\
    if with_dense_output o0 then
      o_dense_index o = length ems /\ upto (before_last o0) (d_x d) ems /\ 1 <= length ems /\ nth 0 ems (0%R, 0%R, []) = first /\
      (increasing_from (snd (fst first)) (tl (before_last o0)) -> Forall (interpolated (accepted_steps (d_tr d))) (tl ems))
    else ems = [].

Lemma increasing_later a l i j : increasing_from a l -> i <= j -> j < length l -> (nth i l 0 <= nth j l 0)%R.
Proof.
  revert a i j. induction l as [|b l IH]; intros a i j H Hij Hj; [cbn in Hj; lia|]. destruct H as [H1 H2]. cbn in Hj.
  destruct i, j; cbn [nth]; [lra| |lia|].
  - pose proof (increasing_nth _ _ j H2 ltac:(lia)). lra.
  - apply (IH b); [exact H2|lia|lia].
Qed.

Lemma exec_inv o0 first s w h x y d stop oo a :
  drv_inv o0 first d -> 0 < n_accepted (w_stats w) -> x = (d_x d + h)%R -> accepted_steps [a] = [(h, x, y)] ->
  exec_opt M s w h x y (d_out d) = Ok (stop, oo) -> stop = false ->
  forall s' w' h', drv_inv o0 first (mkD s' w' oo x y h' (d_tr d ++ [a])).
Proof.
  intros (o & ems & Ho & Hs & Hd) Hn Hx Ha E -> s' w' h'. rewrite Ho in E. cbn [exec_opt] in E.
  apply bind_ok in E as ([st o'] & E & E2). injection E2 as -> <-.
  assert (Hds : dense_state o0 o (d_x d) ems) by (unfold dense_state; destruct (with_dense_output o0); tauto).
  destruct (execute_shows S M _ _ _ _ _ _ _ _ _ _ _ Hs Hds Hn E) as (l & K1 & K2 & K3).
  exists o', (ems ++ l). cbn [d_out d_tr d_x]. rewrite accepted_app, Ha.
  splits; [reflexivity|exact K1|]. unfold dense_state in K2. destruct (with_dense_output o0); [|exact K2].
  destruct Hd as (D1 & D2 & D3 & D4 & D5). destruct K2 as [K2 K2']. splits; auto.
  - rewrite app_length. lia.
  - rewrite app_nth1 by lia. exact D4.
  - intros Hinc. specialize (D5 Hinc). destruct ems as [|e ems]; [cbn in D3; lia|]. cbn [tl app] in *. apply Forall_app. split.
    + eapply Forall_impl; [|exact D5]. intros p (h1 & x1 & y1 & s1 & Hin & R). exists h1, x1, y1, s1. split; [apply in_or_app; now left|exact R].
    + apply Forall_forall. intros p Hp. rewrite Forall_forall in K3. destruct (K3 p Hp) as (G1 & G2 & s1 & G3).
      exists h, x, y, s1. splits; [apply in_or_app; right; now left|exact G1| |exact G2|exact G3].
      (* the station is after the beginning of the step *)
      destruct D2 as (U1 & U2 & U3). destruct K2' as (V1 & V2 & V3).
      apply In_nth with (d := (0%R, 0%R, [])) in Hp as (k & Hk & <-).
      set (i := length (e :: ems)) in *.
      assert (Hil : i + k < length (before_last o0)).
      { change (e :: ems ++ l) with ((e :: ems) ++ l) in V1. rewrite app_length in V1. fold i in V1. lia. }
      assert (Hv : snd (fst (nth k l (0%R, 0%R, []))) = nth (i + k) (before_last o0) 0%R).
      { pose proof (f_equal (fun z => nth (i + k) z 0%R) V2) as F. cbv beta in F.
        assert (Hlen : length (e :: ems ++ l) = i + length l) by (change (e :: ems ++ l) with ((e :: ems) ++ l); apply app_length).
        rewrite <- (firstn_skipn (length (e :: ems ++ l)) (before_last o0)) , app_nth1, <- F.
        2:{ rewrite firstn_length. rewrite Hlen in *. lia. }
        symmetry. etransitivity; [exact (map_nth (fun p : triple => snd (fst p)) (e :: ems ++ l) (0%R, 0%R, []) (i + k))|]. cbv beta.
        change (e :: ems ++ l) with ((e :: ems) ++ l). rewrite app_nth2 by (fold i; lia). fold i. now replace (i + k - i) with k by lia. }
      rewrite Hv. assert (Hi : (d_x d < nth i (before_last o0) 0)%R) by (apply U3; lia).
      assert (Hm : (nth i (before_last o0) 0 <= nth (i + k) (before_last o0) 0)%R).
      { destruct (before_last o0) as [|b L]; [cbn in Hil; lia|]. cbn [tl] in Hinc. assert (Hi1 : 1 <= i) by (unfold i; cbn; lia).
        destruct i as [|i']; [lia|]. cbn [nth plus]. apply (increasing_later (snd (fst first))); [exact Hinc|lia|]. cbn in Hil. lia. }
      rewrite Hx. lra.
Qed.

(** everything that is visible at the end of a run that was not stopped by the user *)
Lemma solve_shows ndim s w y0 x0 x1 h_equal o d :
  fresh_or_used o -> dense_wf o ->
  solve M all_finite P ndim s w y0 x0 x1 h_equal (Some o) = Ok (false, d) ->
  exists o0 o1 h0 ems, o_initialize x0 x1 (ps_save_results (p_stiff P)) o = Ok o0 /\ d_out d = Some o1 /\
    shows o0 o1 ((h0, x0, y0) :: accepted_steps (d_tr d)) ems /\
    if with_dense_output o then
      xs_of ems = before_last o0 ++ [d_x d] /\ length ems = length (o_dense_x o0) /\ nth 0 ems (0%R, 0%R, []) = (h0, x0, y0) /\
      (exists h, last ems (0%R, 0%R, []) = (h, d_x d, d_y d)) /\
      (increasing_from x0 (tl (before_last o0)) -> Forall (interpolated (accepted_steps (d_tr d))) (tl (removelast ems)))
    else ems = [].
Proof.
  intros Hf Hwf E. unfold solve in E. destruct (negb (length y0 =? ndim)); [discriminate|].
  destruct (Rleb_spec x1 x0) as [|Hx]; [discriminate|].
  apply bind_ok in E as ([eq h] & Eh & E). apply bind_ok in E as ([] & Ep & E).
  apply bind_ok in E as ([s1 oo1] & E1 & E). apply bind_ok in E1 as (o0 & Ei & E1). apply bind_ok in E1 as (s1' & _ & E1). injection E1 as -> <-.
  apply bind_ok in E as ([st oo2] & E2 & E).
  destruct st; [discriminate|]. cbn [exec_opt] in E2. apply bind_ok in E2 as ([st o2] & E2 & E2'). injection E2' as -> <-.
  destruct (initialize_shows _ _ _ _ _ Hf Ei) as (Hs & _ & _ & _ & _ & C1 & C2 & C3 & _ & _ & _ & _ & Hst).
  assert (Hw : with_dense_output o0 = with_dense_output o) by (unfold with_dense_output; now rewrite C1, C2, C3).
  destruct (execute_first_shows S M o0 s1 (workspace_reset h (rel_error_prev_min (p_step P)) w) h x0 y0 o2 Hs eq_refl E2) as (ems0 & G1 & G2).
  set (first := (h, x0, y0)).
  set (d0 := mkD s1 (workspace_reset h (rel_error_prev_min (p_step P)) w) (Some o2) x0 y0 h []) in *.
  assert (D0 : drv_inv o0 first d0).
  { exists o2, ems0. cbn [d_out d0 d_tr accepted_steps flat_map d_x]. splits; [reflexivity|exact G1|].
    destruct (with_dense_output o0) eqn:Ew; [|exact G2]. destruct G2 as [G2 ->].
    specialize (Hst (eq_trans (eq_sym Hw) eq_refl)).
    destruct (dense_stations_shape _ _ _ _ Hwf Hst) as (L1 & L2 & _ & L3 & _).
    unfold upto, before_last. rewrite removelast_length. cbn [length xs_of map fst snd nth tl].
    splits; auto; [lia| |].
    - assert (Z : nth 0 (removelast (o_dense_x o0)) 0%R = x0) by (rewrite removelast_nth by lia; exact L2).
      assert (Zl : 0 < length (removelast (o_dense_x o0))) by (rewrite removelast_length; lia).
      destruct (removelast (o_dense_x o0)) as [|b L]; [cbn in Zl; lia|]. cbn in Z. subst b. reflexivity.
    - intros Hlt. rewrite removelast_nth by lia. apply L3. lia. }
  (* the end of the run *)
  assert (Fin : forall d2 oo3, drv_inv o0 first d2 -> last_opt (d_w d2) (d_h d2) (d_x d2) (d_y d2) (d_out d2) = Ok oo3 ->
     d = mkD (d_s d2) (d_w d2) oo3 (d_x d2) (d_y d2) (d_h d2) (d_tr d2) ->
     exists o1 ems, d_out d = Some o1 /\ shows o0 o1 (first :: accepted_steps (d_tr d)) ems /\
     if with_dense_output o then
      xs_of ems = before_last o0 ++ [d_x d] /\ length ems = length (o_dense_x o0) /\ nth 0 ems (0%R, 0%R, []) = first /\
      (exists h, last ems (0%R, 0%R, []) = (h, d_x d, d_y d)) /\
      (increasing_from x0 (tl (before_last o0)) -> Forall (interpolated (accepted_steps (d_tr d))) (tl (removelast ems)))
     else ems = []).
  { intros d2 oo3 (o4 & ems & Z1 & Z2 & Z3) El ->. cbn [d_out d_tr d_x d_y]. rewrite Z1 in El. cbn [last_opt] in El.
    apply bind_ok in El as (o5 & El & El2). injection El2 as <-. exists o5.
    assert (Hds : dense_state o0 o4 (d_x d2) ems) by (unfold dense_state; destruct (with_dense_output o0); tauto).
    pose proof (last_shows _ _ _ _ _ _ _ _ _ _ Z2 Hds El) as K. rewrite Hw in *.
    destruct (with_dense_output o) eqn:Ew.
    - destruct Z3 as (A1 & (A2 & A3 & A4) & A5 & A6 & A7). destruct K as [K1 K2].
      assert (Hr : removelast (ems ++ [(d_h d2, d_x d2, d_y d2)]) = ems).
      { rewrite removelast_app by discriminate. cbn. apply app_nil_r. }
      assert (1 <= length (o_dense_x o0)).
      { destruct (dense_stations_shape _ _ _ _ Hwf (Hst eq_refl)) as (L1 & _). lia. }
      exists (ems ++ [(d_h d2, d_x d2, d_y d2)]). splits; [reflexivity|exact K2| | | | |].
      + unfold xs_of in *. rewrite map_app, A3, K1, firstn_all. reflexivity.
      + rewrite app_length, K1. unfold before_last. rewrite removelast_length. cbn. lia.
      + rewrite app_nth1 by lia. exact A6.
      + exists (d_h d2). apply last_snoc.
      + rewrite Hr. exact A7.
    - exists ems. splits; [reflexivity|exact K|exact Z3]. }
  destruct eq.
  - apply bind_ok in E as ([st2 d2] & E3 & E). destruct st2; [discriminate|]. apply bind_ok in E as (oo3 & E4 & E). injection E as <-.
    assert (Hstep : forall k e s2 w2 s3 w3 x y stop oo, (fun (_ : nat) e => drv_inv o0 first e) k e ->
      m_step M (d_s e) (add_n_steps (d_w e)) (d_x e) (d_y e) (d_h e) = Ok (s2, w2) ->
      m_accept M s2 (add_n_accepted w2) (d_x e) (d_y e) (d_h e) = Ok (s3, w3, x, y) -> all_finite y = Ok tt ->
      exec_opt M s3 w3 (d_h e) x y (d_out e) = Ok (stop, oo) ->
      let d' := mkD s3 w3 oo x y (d_h e) (d_tr e ++ [Accepted (d_h e) x y]) in
      if stop then (fun _ => True) d' else (fun (_ : nat) e => drv_inv o0 first e) (Datatypes.S k) d').
    { intros k e s2 w2 s3 w3 x y stop oo HI Es Eacc Ef Ee. cbv zeta. destruct stop; [exact I|].
      destruct (counters_accept S M CT _ _ _ _ _ _ _ _ _ Eacc) as (F1 & F2 & F3 & F4).
      eapply exec_inv; [exact HI| |exact F4|reflexivity|exact Ee|reflexivity]. lia. }
    pose proof (equal_loop_rule S M all_finite (fun _ e => drv_inv o0 first e) (fun _ => True) Hstep _ 0 _ _ _ D0 E3) as G. cbv beta iota in G.
    destruct (Fin d2 oo3 G E4 eq_refl) as (o5 & ems & K1 & K2 & K3).
    exists o0, o5, h, ems. splits; auto.
  - apply bind_ok in E as ([e d2] & E3 & E).
    assert (G : match e with Stopped => True | Exhausted => exists l : bool, drv_inv o0 first d2 | Success => (exists l : bool, drv_inv o0 first d2) /\ ((x1 - d_x d2 <= 10 * EPSILON)%R \/ True) end).
    { revert E3. apply (var_loop_rule S M all_finite P x1 (fun _ e => drv_inv o0 first e) (fun _ => True) (fun _ => True)); [| | |exact D0].
      - intros l e0 s2 w2 h2 (o4 & ems & Z1 & Z2 & Z3) _ _ _ _ _. exists o4, ems. cbn [d_out d_tr d_x]. rewrite accepted_app, app_nil_r. auto.
      - intros l e0 s2 w2 s3 w3 h2 (o4 & ems & Z1 & Z2 & Z3) _ _ _ _ _ _ _. exists o4, ems. cbn [d_out d_tr d_x]. rewrite accepted_app, app_nil_r. auto.
      - intros l e0 s2 w2 s3 w3 x y h2 stop oo HI _ _ _ Es _ _ Eacc _ Ee. cbv zeta. destruct stop; [exact I|]. split; [|trivial].
        destruct (counters_accept S M CT _ _ _ _ _ _ _ _ _ Eacc) as (F1 & F2 & F3 & F4).
        destruct (stats_after_accept P h2 w3) as (_ & K2 & _).
        eapply exec_inv; [exact HI| |exact F4|reflexivity|exact Ee|reflexivity]. lia. }
    destruct e; [discriminate| |apply bind_ok in E as (? & _ & E); discriminate].
    apply bind_ok in E as (oo3 & E4 & E). injection E as <-. destruct G as [[_ G] _].
    destruct (Fin d2 oo3 G E4 eq_refl) as (o5 & ems & K1 & K2 & K3).
    exists o0, o5, h, ems. splits; auto.
Qed.

(** C55: the dense points are exactly the stations, once each and in order (the last one is the end of
    the run, within 10 epsilon of x1 by C53); they reach the callback, the files and the record.
    Interior points are interpolated within the accepted step that contains them. *)
Theorem C55_stations ndim s w y0 x0 x1 h_equal o d :
  fresh_or_used o -> dense_wf o -> with_dense_output o = true ->
  solve M all_finite P ndim s w y0 x0 x1 h_equal (Some o) = Ok (false, d) ->
  exists dx o1 ems, dense_stations x0 x1 o = Ok dx /\ d_out d = Some o1 /\ o_dense_x o1 = dx /\
    xs_of ems = removelast dx ++ [d_x d] /\
    (exists h, nth 0 ems (0%R, 0%R, []) = (h, x0, y0)) /\ (exists h, last ems (0%R, 0%R, []) = (h, d_x d, d_y d)) /\
    (increasing_from x0 (tl (removelast dx)) -> Forall (interpolated (accepted_steps (d_tr d))) (tl (removelast ems))) /\
    dense_events (o_log o1) = dense_events (o_log o) ++ pick (is_some (o_dense_cb o)) ems /\
    dense_files (o_log o1) = dense_files (o_log o) ++ pick (o_dense_file o) (number (o_dense_file_count o) ems) /\
    map fst (o_dense_y o1) = map fst (o_dense_y o) /\
    (o_dense_rec o = true -> forall m ym, In (m, ym) (o_dense_y o1) -> ym = map (fun p => nth m (snd p) 0%R) ems).
Proof.
  intros Hf Hwf Hd E. destruct (solve_shows _ _ _ _ _ _ _ _ _ Hf Hwf E) as (o0 & o1 & h0 & ems & Ei & Eo & Hs & K).
  rewrite Hd in K. destruct K as (K1 & K2 & K3 & K4 & K5).
  destruct (initialize_shows _ _ _ _ _ Hf Ei) as (_ & I1 & _ & _ & _ & C1 & C2 & C3 & _ & C4 & _ & C5 & Hst).
  destruct Hs as [H1 _ _ _ H5 [H6 _] H7]. rewrite C1, I1 in H5. rewrite C2, I1, C4 in H6. rewrite C3 in H7.
  exists (o_dense_x o0), o1, ems. splits; auto; try tauto.
  - eauto.
  - destruct H1 as (_ & _ & _ & _ & _ & _ & _ & _ & _ & H1 & _). congruence.
  - intros Hr m ym Hin. destruct (H7 Hr m ym Hin) as [L1 L2]. apply (nth_ext_d _ _ 0%R); [rewrite map_length; rewrite L1; symmetry; exact K2|].
    intros i Hi. rewrite L2 by (rewrite K2, <- L1; exact Hi). symmetry.
    rewrite (nth_indep (map (fun p : triple => nth m (snd p) 0%R) ems) 0%R (nth m (snd (0%R, 0%R, @nil R)) 0%R)) by (rewrite map_length, K2, <- L1; exact Hi).
    apply (map_nth (fun p : triple => nth m (snd p) 0%R)).
Qed.

(** C53: what the step output shows is the sequence of accepted steps, the initial point first *)
Theorem C53_recorded ndim s w y0 x0 x1 h_equal o d :
  fresh_or_used o -> dense_wf o ->
  solve M all_finite P ndim s w y0 x0 x1 h_equal (Some o) = Ok (false, d) ->
  exists o1 h0, d_out d = Some o1 /\ let steps := (h0, x0, y0) :: accepted_steps (d_tr d) in
    step_events (o_log o1) = step_events (o_log o) ++ pick (is_some (o_step_cb o)) steps /\
    step_files (o_log o1) = step_files (o_log o) ++ pick (o_step_file o) (number (o_step_file_count o) steps) /\
    (o_step_rec o = true -> o_step_h o1 = hs_of steps /\ o_step_x o1 = xs_of steps /\
       map fst (o_step_y o1) = map fst (o_step_y o) /\
       forall m ym, In (m, ym) (o_step_y o1) -> ym = map (fun p => nth m (snd p) 0%R) steps).
Proof.
  intros Hf Hwf E. destruct (solve_shows _ _ _ _ _ _ _ _ _ Hf Hwf E) as (o0 & o1 & h0 & ems & Ei & Eo & Hs & _).
  destruct (initialize_shows _ _ _ _ _ Hf Ei) as (_ & I1 & C1 & C2 & C3 & _ & _ & _ & C4 & _ & C5 & _ & _).
  destruct Hs as [H1 H2 H3 [H4 _] _ _ _]. rewrite C1, I1 in H3. rewrite C2, C4, I1 in H4. rewrite C3 in H2.
  exists o1, h0. cbv zeta. splits; auto. intros Hr. destruct (H2 Hr) as (A & B & C). splits; auto. destruct H1 as (_ & _ & _ & _ & _ & _ & _ & _ & H1 & _). congruence.
Qed.
End Solve.

(** * Findings *)
Lemma trunc_usize_eq r n : (INR n <= r < INR n + 1)%R -> trunc_usize r = n.
Proof.
  intros [A B]. unfold trunc_usize, Int_part. rewrite <- (tech_up r (Z.of_nat n + 1)).
  - lia.
  - rewrite plus_IZR, <- INR_IZR_INZ. exact B.
  - rewrite plus_IZR, <- INR_IZR_INZ. lra.
Qed.

(** C55, finding: the uniform mode with h_out not dividing the interval overwrites the last multiple of
    h_out by x1: on [0, 1] with h_out = 0.3 the station 0.9 is never emitted *)
Theorem C55_uniform_drops_refuted : exists o h, dense_wf o /\ o_dense_h_out o = Some h /\ (0 < 0 + INR 3 * h < 1)%R /\
  exists dx, dense_stations 0 1 o = Ok dx /\ ~ In (0 + INR 3 * h)%R dx.
Proof.
  exists (set_o_dense_h_out (Some (3/10)%R) output_new), (3/10)%R. pose proof eps_small. pose proof eps_pos.
  assert (Hn : n_uniform 0 1 (3/10) = 4).
  { unfold n_uniform. rewrite (trunc_usize_eq _ 3); [reflexivity|]. unfold EPS_X1_H_OUT. cbn [INR]. lra. }
  splits; try reflexivity.
  - split; cbn; [lia|]. intros h E. injection E as <-. lra.
  - cbn [INR]. lra.
  - cbn [INR]. lra.
  - eexists. split; [apply C55_uniform_stations; reflexivity|]. rewrite Hn. cbn [seq map app In INR Nat.sub].
    intros F. repeat (destruct F as [F|F]; [lra|]). exact F.
Qed.

(** C55, finding: with dense output, running out of the allowed number of steps is a panic (the
    assertion in `last`), not the documented error; without output it is the error *)
Definition three_stations : output := set_o_dense_x [0; 3/4; 0]%R (set_dense_recording [0] output_new).
Example three_stations_reachable : snd (set_dense_x_out [3/4]%R (set_dense_recording [0] output_new)) = three_stations.
Proof. reflexivity. Qed.

Theorem C55_exhausted_panics_refuted : exists P : params, n_step_max (p_step P) = 1 /\
  solve toy (fun _ => Ok tt) P 1 0 workspace_new [5%R] 0 1 None None = Err "variable stepping did not converge" /\
  solve toy (fun _ => Ok tt) P 1 0 workspace_new [5%R] 0 1 None (Some three_stations) = Panic.
Proof.
  exists (toy_params (1/2) 1). pose proof eps_pos. pose proof eps_small. split; [reflexivity|]. split.
  - unfold solve. cbn [length Nat.eqb negb]. rewrite (proj2 (Rleb_false _ _)) by lra.
    unfold initial_h. change (i_embedded (method_information (p_method (toy_params (1/2) 1)))) with true. cbn [bind].
    change (h_ini (p_step (toy_params (1/2) 1))) with (1/2)%R. rewrite (Rmin_left (1/2) (1-0)) by lra.
    unfold assert_. rewrite (proj2 (Rltb_true 0 (1/2))) by lra. cbn [bind exec_opt].
    change (n_step_max (p_step (toy_params (1/2) 1))) with 1.
    rewrite (toy_accept _ 1 0 false 0 _ 0 _ _ _ (1/2)); [|lra|apply Rmin_left; cbn; lra|lra|reflexivity|lia]. cbv zeta. reflexivity.
  - unfold solve. cbn [length Nat.eqb negb]. rewrite (proj2 (Rleb_false _ _)) by lra.
    unfold initial_h. change (i_embedded (method_information (p_method (toy_params (1/2) 1)))) with true. cbn [bind].
    change (h_ini (p_step (toy_params (1/2) 1))) with (1/2)%R. rewrite (Rmin_left (1/2) (1-0)) by lra.
    unfold assert_ at 1. rewrite (proj2 (Rltb_true 0 (1/2))) by lra. cbn [bind].
    assert (Ei : o_initialize 0 1 (ps_save_results (p_stiff (toy_params (1/2) 1))) three_stations =
      Ok (set_o_initialized true (set_o_x1 1%R (set_o_x0 0%R (set_o_dense_y [(0, [0; 0; 0]%R)] (set_o_dense_x [0; 3/4; 1]%R three_stations)))))).
    { unfold o_initialize, assert_. rewrite (proj2 (Rltb_true 0 1)) by lra. cbn [bind]. 
      change (o_initialized (set_o_stiff_rec _ three_stations)) with false. cbn [andb].
      change (o_initialized (set_o_stiff_rec _ three_stations)) with false. cbn [andb].
      change (with_dense_output (set_o_stiff_rec _ three_stations)) with true. cbv iota.
      assert (Ed : dense_stations 0 1 (set_o_stiff_rec (ps_save_results (p_stiff (toy_params (1/2) 1))) three_stations) = Ok [0; 3/4; 1]%R).
      { unfold dense_stations. cbn -[Rleb]. rewrite (proj2 (Rleb_false _ _)) by lra. cbn -[Rleb]. rewrite (proj2 (Rleb_false _ _)) by lra. reflexivity. }
      rewrite Ed. cbn [bind]. reflexivity. }
    rewrite Ei. cbn [bind]. set (oi := set_o_initialized true _).
    change (with_dense_output oi) with true. cbv iota. cbn [toy m_enable_dense bind exec_opt].
    match goal with |- context [o_execute toy 0 ?w _ _ _ oi] => assert (Ee : o_execute toy 0 w (1/2) 0 [5%R] oi = Ok (false, set_o_dense_index 1 (set_o_dense_y [(0, [5; 0; 0]%R)] oi))) by reflexivity end.
    rewrite Ee. cbn [bind]. clear Ee.
    change (n_step_max (p_step (toy_params (1/2) 1))) with 1.
    cbn [var_loop d_x d_w]. rewrite (proj2 (Rleb_false _ _)) by lra.
    change (w_h_new (workspace_reset (1 / 2) (rel_error_prev_min (p_step (toy_params (1 / 2) 1))) workspace_new)) with (1/2)%R.
    rewrite (Rmin_left (1/2) (1-0)) by lra. rewrite (proj2 (Rleb_false _ _)) by lra.
    cbn [toy m_step bind d_s Nat.eqb].
    change (w_diverging (set_w_rel_error _ _)) with false. cbv iota.
    match goal with |- context [Rltb (w_rel_error ?w) 1] => change (w_rel_error w) with (1/2)%R end.
    rewrite (proj2 (Rltb_true (1/2) 1)) by lra.
    cbn [toy m_accept bind d_out exec_opt d_y map]. fold toy.
    match goal with |- context [o_execute toy ?s ?w ?h ?x ?y ?o] => assert (Ee : o_execute toy s w h x y o = Ok (false, o)) end.
    { unfold o_execute. change (o_initialized _) with true. cbn [assert_ bind].
      change (o_step_cb _) with (@None callback). cbn [run_cb bind]. 
      change (write_step_file _ _ _ ?o) with o. change (record_step _ _ _ ?o) with (Ok o). cbn [bind].
      unfold dense_part. change (with_dense_output _) with true. cbv iota.
      change (n_accepted _ =? 0) with false. cbv iota.
      change (length _) with 3. change (usub 3 1) with (Ok 2). cbn [bind].
      change (2 - _) with 1. cbn [dense_loop]. change (vget _ _) with (Ok (3/4)%R). cbn [bind]. rewrite (proj2 (Rltb_true _ _)) by lra.
      cbn [bind]. reflexivity. }
    rewrite Ee. cbn [bind]. reflexivity.
Qed.

Print Assumptions C55_stations.
Print Assumptions C53_recorded.

(** a run with dense output that succeeds: one step over [0, 1], the station 3/4 inside it *)
Example C55_ex : exists d o, solve toy (fun _ => Ok tt) (toy_params (1/2) 1) 1 0 workspace_new [5%R] 0 1 (Some 1%R) (Some three_stations) = Ok (false, d) /\
  d_out d = Some o /\ o_dense_y o = [(0, [5; 5 + 1 - (0 + 1 - 3 / 4); 5 + 1]%R)].
Proof.
  pose proof eps_pos. pose proof eps_small.
  eexists; eexists. unfold solve. cbn [length Nat.eqb negb]. rewrite (proj2 (Rleb_false _ _)) by lra.
  unfold initial_h. rewrite (proj2 (Rltb_false _ _)) by lra.
  replace ((1 - 0) / 1)%R with (INR 1) by (cbn; lra). rewrite ceil_usize_INR. replace ((1 - 0) / INR 1)%R with 1%R by (cbn; lra).
  cbn [bind]. unfold assert_ at 1. rewrite (proj2 (Rltb_true 0 1)) by lra. cbn [bind].
  assert (Ei : o_initialize 0 1 (ps_save_results (p_stiff (toy_params (1/2) 1))) three_stations =
      Ok (set_o_initialized true (set_o_x1 1%R (set_o_x0 0%R (set_o_dense_y [(0, [0; 0; 0]%R)] (set_o_dense_x [0; 3/4; 1]%R three_stations)))))).
  { unfold o_initialize, assert_. rewrite (proj2 (Rltb_true 0 1)) by lra. cbn [bind]. 
      change (o_initialized (set_o_stiff_rec _ three_stations)) with false. cbn [andb].
      change (o_initialized (set_o_stiff_rec _ three_stations)) with false. cbn [andb].
      change (with_dense_output (set_o_stiff_rec _ three_stations)) with true. cbv iota.
      assert (Ed : dense_stations 0 1 (set_o_stiff_rec (ps_save_results (p_stiff (toy_params (1/2) 1))) three_stations) = Ok [0; 3/4; 1]%R).
      { unfold dense_stations. cbn -[Rleb]. rewrite (proj2 (Rleb_false _ _)) by lra. cbn -[Rleb]. rewrite (proj2 (Rleb_false _ _)) by lra. reflexivity. }
      rewrite Ed. cbn [bind]. reflexivity. }
  rewrite Ei. cbn [bind]. set (oi := set_o_initialized true _).
  change (with_dense_output oi) with true. cbv iota. cbn [toy m_enable_dense bind exec_opt].
  match goal with |- context [o_execute toy 0 ?w _ _ _ oi] => assert (Ee : o_execute toy 0 w 1 0 [5%R] oi = Ok (false, set_o_dense_index 1 (set_o_dense_y [(0, [5; 0; 0]%R)] oi))) by reflexivity end.
  rewrite Ee. cbn [bind]. clear Ee.
  replace ((1 - 0) / 1)%R with (INR 1) by (cbn; lra). rewrite ceil_usize_INR.
  cbn [equal_loop d_x d_w d_s d_h d_y d_out toy m_step m_accept bind map]. fold toy. cbn [exec_opt].
  match goal with |- context [o_execute toy ?s ?w ?h ?x ?y ?o] =>
    assert (Ee : o_execute toy s w h x y o = Ok (false, set_o_dense_index 2 (set_o_dense_y [(0, [5; 5 + 1 - (0 + 1 - 3 / 4); 0]%R)] o))) end.
  { unfold o_execute. change (o_initialized _) with true. cbn [assert_ bind].
    change (o_step_cb _) with (@None callback). cbn [run_cb bind].
    change (write_step_file _ _ _ ?o) with o. change (record_step _ _ _ ?o) with (Ok o). cbn [bind].
    unfold dense_part. change (with_dense_output _) with true. cbv iota.
    change (n_accepted _ =? 0) with false. cbv iota.
    change (length _) with 3. change (usub 3 1) with (Ok 2). cbn [bind].
    change (2 - _) with 1. cbn [dense_loop]. change (vget _ _) with (Ok (3/4)%R). cbn [bind]. rewrite (proj2 (Rltb_false _ _)) by lra.
    reflexivity. }
  rewrite Ee. cbn [bind d_w d_h d_x d_y d_out last_opt]. cbn -[Rltb Rleb]. split; [reflexivity|]. split; reflexivity.
Qed.
