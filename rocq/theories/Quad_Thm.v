(** C26: the adaptive quadrature *)
From Coq Require Import Reals Lra Lia ZArith List Psatz.
From Coquelicot Require Import Coquelicot.
From Verif Require Import RBase RSum Quad_Model Search_Thm.
Import ListNotations.
Open Scope R_scope.

(* ------------------------------------------------------------------ *)
(** * Specification *)

(** the rule with nodes +-a and weights w on [lo, hi] *)
Definition gauss_rule (tab : list (R * R)) (g : R -> R) (lo hi : R) : R :=
  let x := (lo + hi) / 2 in
  let h := (hi - lo) / 2 in
  h * fold_right (fun aw s => snd aw * (g (x - fst aw * h) + g (x + fst aw * h)) + s) 0 tab.

(** the pieces follow one another from lo to hi *)
Fixpoint chain (lo : R) (ps : list (R * R)) (hi : R) : Prop :=
  match ps with
  | [] => lo = hi
  | (c, d) :: t => c = lo /\ chain d t hi
  end.

(** sum of a quantity over the pieces *)
Definition total (rule : R -> R -> R) (ps : list (R * R)) : R := fold_right (fun p s => rule (fst p) (snd p) + s) 0 ps.

(** both halves of a piece *)
Definition halves (rule : R -> R -> R) (c d : R) : R := rule c ((c + d) / 2) + rule ((c + d) / 2) d.

(** the answers of the callback are values of g (it may fail at some calls and
    keep a state) *)
Definition answers (f : callback) (g : R -> R) : Prop := forall l x y, f l x = Ok y -> y = g x.

(* ------------------------------------------------------------------ *)
(** * Basics *)

Lemma chain_app lo ps mid qs hi : chain lo ps mid -> chain mid qs hi -> chain lo (ps ++ qs) hi.
Proof.
  revert lo. induction ps as [|[c d] t IH]; cbn; intros lo H1 H2; [now subst|]. destruct H1. split; auto.
Qed.
Lemma total_app rule ps qs : total rule (ps ++ qs) = total rule ps + total rule qs.
Proof. unfold total. induction ps as [|p t IH]; cbn; [lra|]. rewrite IH. lra. Qed.

Lemma gauss_sum_ok f g x h aw : answers f g -> forall sum l l' r,
  gauss_sum f x h aw sum l = (l', r) ->
  match r with
  | Ok v => v = sum + fold_right (fun aw s => snd aw * (g (x - fst aw * h) + g (x + fst aw * h)) + s) 0 aw
  | Err e => exists l x, f l x = Err e
  | Panic => exists l x, f l x = Panic
  end.
Proof.
  intros Hg. induction aw as [|[a w] t IH]; intros sum l l' r E; cbn [gauss_sum] in E.
  - inversion E; subst. cbn. lra.
  - unfold mbind at 1, ask at 1 in E. destruct (f l (x - a * h)) as [y1|e|] eqn:E1; [|inversion E; subst; eauto|inversion E; subst; eauto].
    unfold mbind at 1, ask at 1 in E. destruct (f _ (x + a * h)) as [y2|e|] eqn:E2; [|inversion E; subst; eauto|inversion E; subst; eauto].
    specialize (IH _ _ _ _ E). destruct r; auto. rewrite IH. rewrite (Hg _ _ _ E1), (Hg _ _ _ E2). cbn [fold_right fst snd]. lra.
Qed.

Lemma gauss_ok f g ng tab c h lo hi : answers f g -> gauss_table ng = Some tab -> c = (lo + hi) / 2 -> h = (hi - lo) / 2 -> forall l l' r,
  gauss ng c h f l = (l', r) ->
  match r with
  | Ok v => v = gauss_rule tab g lo hi
  | Err e => exists l x, f l x = Err e
  | Panic => exists l x, f l x = Panic
  end.
Proof.
  intros Hg Ht Hc Hh l l' r E. unfold gauss in E. rewrite Ht in E. unfold mbind in E.
  destruct (gauss_sum f c h tab 0 l) as [l1 r1] eqn:E1. pose proof (gauss_sum_ok f g c h tab Hg _ _ _ _ E1) as H.
  destruct r1; inversion E; subst; auto. unfold gauss_rule. cbv zeta. rewrite Rplus_0_l. reflexivity.
Qed.

(* ------------------------------------------------------------------ *)
(** * The levels *)

Section Levels.
Variables (a b : R) (rule : R -> R -> R).

(** width of a piece *)
Definition dyadic (p : R * R) : Prop := exists k, (k <= 32)%nat /\ snd p - fst p = (b - a) / 2 ^ k.

Definition tiling (lo hi : R) (ps : list (R * R)) (v : R) : Prop :=
  chain lo ps hi /\ Forall dyadic ps /\ v = total (halves rule) ps.

Lemma tiling_app lo mid hi ps qs u v : tiling lo mid ps u -> tiling mid hi qs v -> tiling lo hi (ps ++ qs) (u + v).
Proof.
  intros (A1 & A2 & A3) (B1 & B2 & B3). unfold tiling. splits.
  - eapply chain_app; eauto.
  - apply Forall_app; auto.
  - rewrite total_app. lra.
Qed.

Definition nA (l : list R) i := nth i l 0.
Definition nL (l : list Z) i := nth i l 0%Z.

(** error of the pieces done in the left halves of the levels 2..l *)
Definition pending (lr : list Z) (P : nat -> list (R * R)) (l : nat) : R :=
  sumn (l - 1) (fun j => if (0 <? nL lr (j + 2))%Z then total rule (P (j + 2)%nat) - total (halves rule) (P (j + 2)%nat) else 0).

Definition level_ok (s : qst) (P : nat -> list (R * R)) (i : nat) : Prop :=
  let A := nA (q_aa s) in let H := nA (q_hh s) in
  (nL (q_lr s) i = (-1)%Z /\ A i = A (i - 1)%nat /\
   nA (q_gr s) (i - 1) = rule (A (i - 1)%nat + 2 * H (i - 1)%nat) (A (i - 1)%nat + 4 * H (i - 1)%nat)) \/
  (nL (q_lr s) i = 1%Z /\ A i = A (i - 1)%nat + 2 * H (i - 1)%nat /\ tiling (A (i - 1)%nat) (A i) (P i) (nA (q_vl s) i)).

Definition levels (s : qst) (P : nat -> list (R * R)) (l : nat) : Prop :=
  length (q_aa s) = 61%nat /\ length (q_hh s) = 61%nat /\ length (q_vl s) = 61%nat /\ length (q_gr s) = 61%nat /\ length (q_lr s) = 61%nat /\
  (1 <= l <= 33)%nat /\ (q_lmx s <= 33)%nat /\
  (forall i, (1 <= i <= l)%nat -> nA (q_hh s) i = (b - a) / 4 / 2 ^ (i - 1)) /\
  nL (q_lr s) 1 = 1%Z /\ nA (q_aa s) 1 = a /\
  (forall i, (2 <= i <= l)%nat -> level_ok s P i).

(** the current piece is [aa l, aa l + 4 hh l] *)
Definition hi_of (s : qst) (l : nat) : R := nA (q_aa s) l + 4 * nA (q_hh s) l.

Definition ready (s : qst) (P : nat -> list (R * R)) : Prop :=
  levels s P (q_l s) /\ q_est s = rule (nA (q_aa s) (q_l s)) (hi_of s (q_l s)) /\ q_err s = pending (q_lr s) P (q_l s).

Definition finished (s : qst) : Prop :=
  exists ps, tiling a b ps (q_ans s) /\ q_err s = total rule ps - q_ans s.

Lemma pending_ext lr lr' P P' l :
  (forall i, (2 <= i <= l)%nat -> nL lr i = nL lr' i /\ P i = P' i) -> pending lr P l = pending lr' P' l.
Proof. intros H. unfold pending. apply sumn_ext. intros j Hj. destruct (H (j + 2)%nat) as [-> ->]; [lia|]. reflexivity. Qed.
Lemma pending_S lr P l : (1 <= l)%nat -> pending lr P (S l) =
  pending lr P l + (if (0 <? nL lr (S l))%Z then total rule (P (S l)) - total (halves rule) (P (S l)) else 0).
Proof.
  intros H. unfold pending. replace (S l - 1)%nat with (S (l - 1)) by lia. cbn [sumn]. replace (l - 1 + 2)%nat with (S l) by lia. reflexivity.
Qed.

Lemma nA_upd_eq l i x : (i < length l)%nat -> nA (upd l i x) i = x.
Proof. intros. unfold nA. apply nth_upd_eq; auto. Qed.
Lemma nA_upd_neq l i j x : i <> j -> nA (upd l i x) j = nA l j.
Proof. intros. unfold nA. apply nth_upd_ne; auto. Qed.
Lemma nL_upd_eq l i x : (i < length l)%nat -> nL (upd l i x) i = x.
Proof. intros. unfold nL. apply nth_upd_eq; auto. Qed.
Lemma nL_upd_neq l i j x : i <> j -> nL (upd l i x) j = nL l j.
Proof. intros. unfold nL. apply nth_upd_ne; auto. Qed.
Lemma vgetA l i : (i < length l)%nat -> vget l i = Ok (nA l i).
Proof. intros. now apply vget_ok. Qed.
Lemma vgetL l i : (i < length l)%nat -> vget l i = Ok (nL l i).
Proof. intros. now apply vget_ok. Qed.

(** a new level is half as wide *)
Lemma hh_half s P l : levels s P l -> (2 <= l)%nat -> 4 * nA (q_hh s) l = 2 * nA (q_hh s) (l - 1).
Proof.
  intros (_ & _ & _ & _ & _ & _ & _ & Hh & _) H. rewrite !Hh by lia. replace (l - 1)%nat with (S (l - 1 - 1)) at 1 by lia. cbn [pow].
  pose proof (pow_lt 2 (l - 1 - 1) ltac:(lra)). field. lra.
Qed.

(** moving to the right half of level l: what is needed and what holds after *)
Lemma to_right s P l ps v est : levels s P l -> (2 <= l)%nat -> nL (q_lr s) l = (-1)%Z ->
  tiling (nA (q_aa s) l) (hi_of s l) ps v ->
  forall lmx eps ef area ans k mxl nf ni, (lmx <= 33)%nat -> est = nA (q_gr s) (l - 1) ->
  let s' := mkT (upd (q_aa s) l (nA (q_aa s) l + 4 * nA (q_hh s) l)) (q_hh s) (upd (q_vl s) l v) (q_gr s) (upd (q_lr s) l 1%Z) l lmx eps ef
              est area ans (pending (q_lr s) P l + (total rule ps - v)) k mxl nf ni in
  exists P', ready s' P'.
Proof.
  intros Lv Hl El Ht lmx eps ef area ans k mxl nf ni Hlmx Eest s'.
  pose proof (hh_half s P l Lv Hl) as HH.
  destruct Lv as (L1 & L2 & L3 & L4 & L5 & L6 & L7 & Hh & Hr1 & Ha1 & Hlev).
  destruct (Hlev l ltac:(lia)) as [(C1 & C2 & C3)|(C1 & _)]; [|congruence].
  exists (fun i => if (i =? l)%nat then ps else P i).
  unfold ready, s'. cbn [q_l q_aa q_hh q_vl q_gr q_lr q_est q_err]. unfold hi_of in *. cbn [q_aa q_hh] in *. splits.
  - unfold levels. cbn [q_l q_aa q_hh q_vl q_gr q_lr q_lmx]. rewrite !upd_length. splits; auto; try lia.
    + rewrite nL_upd_neq by lia. auto.
    + rewrite nA_upd_neq by lia. auto.
    + intros i Hi. unfold level_ok. cbn [q_l q_aa q_hh q_vl q_gr q_lr]. destruct (Nat.eqb_spec i l) as [->|N].
      * right. rewrite nL_upd_eq, !nA_upd_eq by lia. rewrite !nA_upd_neq by lia. splits; auto.
        -- rewrite C2 in *. lra.
        -- rewrite C2 in Ht. rewrite C2. exact Ht.
      * rewrite nL_upd_neq, !nA_upd_neq by lia.
        destruct (Nat.eq_dec (i - 1) l) as [E|E]; [lia|]. rewrite ?nA_upd_neq by lia. exact (Hlev i ltac:(lia)).
  - rewrite nA_upd_eq by lia. rewrite Eest, C3, C2. f_equal; lra.
  - destruct Ht as (_ & _ & Ev). replace l with (S (l - 1)) at 1 2 3 by lia. rewrite !pending_S by lia. replace (S (l - 1)) with l by lia.
    rewrite nL_upd_eq by lia. rewrite El. cbn [Z.ltb Z.compare]. rewrite Nat.eqb_refl. rewrite Rplus_0_r.
    rewrite (pending_ext (upd (q_lr s) l 1%Z) (q_lr s) _ P).
    + rewrite Ev. lra.
    + intros i Hi. rewrite nL_upd_neq by lia. destruct (Nat.eqb_spec i l); [lia|]. auto.
Qed.

Lemma go_up_ok : forall l s P ps,
  levels s P l -> nL (q_lr s) l = 1%Z -> tiling (nA (q_aa s) l) (hi_of s l) ps (q_ans s) ->
  q_err s = pending (q_lr s) P l + (total rule ps - q_ans s) ->
  exists done s', go_up l s = Ok (done, s') /\ q_nf s' = q_nf s /\ q_ni s' = q_ni s /\ q_mxl s' = q_mxl s /\
    (if done then finished s' else exists P', ready s' P').
Proof.
  induction l as [|l IH]; intros s P ps Lv Er Ht Ee. { destruct Lv as (_ & _ & _ & _ & _ & H & _). lia. }
  destruct (Nat.eq_dec l 0) as [->|Hl].
  - cbn [go_up]. exists true, s. splits; auto. exists ps.
    destruct Lv as (L1 & L2 & L3 & L4 & L5 & L6 & L7 & Hh & Hr1 & Ha1 & Hlev).
    unfold hi_of in Ht. rewrite Ha1, Hh in Ht by lia. cbn [Nat.sub pow] in Ht. replace (a + 4 * ((b - a) / 4 / 1)) with b in Ht by field.
    split; auto. rewrite Ee. unfold pending. cbn. lra.
  - pose proof (hh_half s P (S l) Lv ltac:(lia)) as HH. replace (S l - 1)%nat with l in HH by lia.
    pose proof Lv as (L1 & L2 & L3 & L4 & L5 & L6 & L7 & Hh & Hr1 & Ha1 & Hlev).
    destruct (Hlev (S l) ltac:(lia)) as [(C1 & _)|(C1 & C2 & C3)]; [congruence|]. replace (S l - 1)%nat with l in * by lia.
    assert (T : tiling (nA (q_aa s) l) (hi_of s l) (P (S l) ++ ps) (nA (q_vl s) (S l) + q_ans s)).
    { eapply tiling_app; [exact C3|]. unfold hi_of in *. replace (nA (q_aa s) l + 4 * nA (q_hh s) l) with (nA (q_aa s) (S l) + 4 * nA (q_hh s) (S l)) by lra. exact Ht. }
    assert (E2 : q_err s = pending (q_lr s) P l + (total rule (P (S l) ++ ps) - (nA (q_vl s) (S l) + q_ans s))).
    { rewrite Ee, pending_S by lia. rewrite Er. cbn [Z.ltb Z.compare]. rewrite total_app. destruct C3 as (_ & _ & ->). lra. }
    assert (Lv' : levels s P l) by (unfold levels; splits; auto; try lia; intros; [apply Hh|apply Hlev]; lia).
    cbn [go_up]. destruct l as [|l0]; [lia|]. set (l := S l0) in *.
    replace (l + 1)%nat with (S l) by lia. rewrite (vgetL (q_lr s) l), (vgetA (q_vl s) (S l)) by lia. cbn [bind].
    destruct (Z.leb_spec (nL (q_lr s) l) 0) as [C|C].
    + assert (Hl2 : (2 <= l)%nat).
      { destruct (Nat.eq_dec l 1) as [E|]; [|lia]. rewrite E, Hr1 in C. lia. }
      assert (Cl : nL (q_lr s) l = (-1)%Z) by (destruct (Hlev l ltac:(lia)) as [(X & _)|(X & _)]; rewrite X in *; lia).
      rewrite vset_ok by lia. cbn [bind]. rewrite (vgetA (q_gr s)) by lia. cbn [bind]. rewrite vset_ok by lia. cbn [bind].
      rewrite (vgetA (q_aa s)) by lia. cbn [bind]. rewrite (vgetA (q_hh s)) by lia. cbn [bind]. rewrite vset_ok by lia. cbn [bind].
      eexists false, _. split; [reflexivity|]. cbn [q_nf q_ni q_mxl]. splits; auto. rewrite E2.
      eapply (to_right s P l); eauto.
    + assert (Cl : nL (q_lr s) l = 1%Z).
      { destruct (Nat.eq_dec l 1) as [E|]; [rewrite E; auto|]. destruct (Hlev l ltac:(lia)) as [(X & _)|(X & _)]; rewrite X in *; lia. }
      set (s1 := mkT _ _ _ _ _ _ _ _ _ _ _ _ _ _ _ _ _).
      destruct (IH s1 P (P (S l) ++ ps)) as (done & s' & Eg & G1 & G2 & G3 & G4).
      * exact Lv'.
      * exact Cl.
      * unfold s1, hi_of. cbn [q_aa q_hh q_ans]. rewrite (Rplus_comm (q_ans s)). exact T.
      * unfold s1. cbn [q_err q_lr q_ans]. rewrite E2. lra.
      * exists done, s'. splits; auto.
Qed.

(** one iteration after the evaluations *)
Lemma quad_next_ok tol gl s P : ready s P ->
  let A := nA (q_aa s) (q_l s) in let H := nA (q_hh s) (q_l s) in
  gl = rule A (A + 2 * H) -> nA (q_gr s) (q_l s) = rule (A + 2 * H) (A + 4 * H) ->
  exists done s', quad_next tol gl (gl + nA (q_gr s) (q_l s)) s = Ok (done, s') /\ q_nf s' = q_nf s /\ q_ni s' = q_ni s /\
    (if done then finished s' else exists P', ready s' P').
Proof.
  intros (Lv & Est & Err) A H Egl Egr. unfold quad_next.
  pose proof Lv as (L1 & L2 & L3 & L4 & L5 & L6 & L7 & Hh & Hr1 & Ha1 & Hlev).
  set (l := q_l s) in *. set (glr := gl + nA (q_gr s) l).
  set (refine := Rltb 0 _). set (lmx := if refine && (KMX <? q_k s)%nat then KML else q_lmx s).
  assert (Hlmx : (lmx <= 33)%nat) by (unfold lmx; destruct (refine && _)%bool; unfold KML; lia).
  destruct (refine && negb (lmx <=? l)%nat)%bool eqn:Go.
  - apply andb_prop in Go. destruct Go as [_ Go]. apply negb_true_iff, Nat.leb_gt in Go.
    replace (S l - 1)%nat with l by lia. rewrite (vgetA (q_hh s)) by lia. cbn [bind]. rewrite vset_ok by lia. cbn [bind].
    rewrite vset_ok by lia. cbn [bind]. rewrite (vgetA (q_aa s)) by lia. cbn [bind]. rewrite vset_ok by lia. cbn [bind].
    eexists false, _. split; [reflexivity|]. cbn [q_nf q_ni]. splits; auto.
    assert (HHn : nA (q_hh s) l * 0.5 = (b - a) / 4 / 2 ^ l).
    { rewrite Hh by lia. assert (E : 2 ^ l = 2 * 2 ^ (l - 1)) by (rewrite tech_pow_Rmult; f_equal; lia).
      rewrite E. replace 0.5 with (/ 2) by lra. pose proof (pow_lt 2 (l - 1) ltac:(lra)). field. lra. }
    exists P. unfold ready. cbn [q_l q_aa q_hh q_vl q_gr q_lr q_est q_err]. unfold hi_of in *. cbn [q_aa q_hh] in *. splits.
    + unfold levels. cbn [q_l q_aa q_hh q_vl q_gr q_lr q_lmx]. rewrite !upd_length. splits; auto; try lia.
      * intros i Hi. destruct (Nat.eq_dec i (S l)) as [->|N].
        -- rewrite nA_upd_eq by lia. rewrite HHn. replace (S l - 1)%nat with l by lia. reflexivity.
        -- rewrite nA_upd_neq by lia. apply Hh. lia.
      * rewrite nL_upd_neq by lia. auto.
      * rewrite nA_upd_neq by lia. auto.
      * intros i Hi. unfold level_ok. cbn [q_l q_aa q_hh q_vl q_gr q_lr]. destruct (Nat.eq_dec i (S l)) as [->|N].
        -- left. replace (S l - 1)%nat with l by lia. rewrite nL_upd_eq, nA_upd_eq by lia. rewrite !nA_upd_neq by lia. splits; auto.
        -- rewrite nL_upd_neq, !nA_upd_neq by lia. exact (Hlev i ltac:(lia)).
    + rewrite !nA_upd_eq by lia. rewrite Egl. unfold A, H. f_equal. lra.
    + rewrite pending_S by lia. rewrite nL_upd_eq by lia. cbn [Z.ltb Z.compare]. rewrite Rplus_0_r, Err.
      apply pending_ext. intros i Hi. rewrite nL_upd_neq by lia. auto.
  - (* the piece is done *)
    rewrite (vgetL (q_lr s)) by lia. cbn [bind].
    set (ps := [(A, A + 4 * H)]).
    assert (T : tiling A (hi_of s l) ps glr).
    { unfold tiling, ps, hi_of. cbn. splits; auto.
      - constructor; [|constructor]. exists (l - 1)%nat. split; [lia|]. cbn. unfold H. rewrite Hh by lia. pose proof (pow_lt 2 (l - 1) ltac:(lra)). field. lra.
      - unfold glr, halves. rewrite Egl, Egr. replace ((A + (A + 4 * H)) / 2) with (A + 2 * H) by field. lra. }
    assert (Tr : total rule ps = q_est s) by (unfold ps, total; cbn; rewrite Est; unfold hi_of; fold A; fold H; lra).
    destruct (Z.ltb_spec 0 (nL (q_lr s) l)) as [C|C].
    + set (s1 := mkT _ _ _ _ _ _ _ _ _ _ _ _ _ _ _ _ _).
      assert (Cl : nL (q_lr s) l = 1%Z).
      { destruct (Nat.eq_dec l 1) as [E|]; [rewrite E; auto|]. destruct (Hlev l ltac:(lia)) as [(X & _)|(X & _)]; rewrite X in *; lia. }
      destruct (go_up_ok l s1 P ps) as (done & s' & Eg & G1 & G2 & G3 & G4).
      * unfold s1, levels. cbn [q_l q_aa q_hh q_vl q_gr q_lr q_lmx]. splits; auto; lia.
      * exact Cl.
      * exact T.
      * unfold s1. cbn [q_err q_lr q_ans]. rewrite Err, Tr. fold glr. lra.
      * exists done, s'. splits; auto.
    + assert (Hl2 : (2 <= l)%nat).
      { destruct (Nat.eq_dec l 1) as [E|]; [|lia]. rewrite E, Hr1 in C. lia. }
      assert (Cl : nL (q_lr s) l = (-1)%Z) by (destruct (Hlev l ltac:(lia)) as [(X & _)|(X & _)]; rewrite X in *; lia).
      rewrite vset_ok by lia. cbn [bind]. unfold usub. destruct (Nat.leb_spec 1 l); [|lia]. cbn [bind].
      rewrite (vgetA (q_gr s)) by lia. cbn [bind]. rewrite vset_ok by lia. cbn [bind].
      rewrite (vgetA (q_aa s)) by lia. cbn [bind]. rewrite (vgetA (q_hh s)) by lia. cbn [bind]. rewrite vset_ok by lia. cbn [bind].
      eexists false, _. split; [reflexivity|]. cbn [q_nf q_ni]. splits; auto.
      replace (q_err s + (q_est s - glr)) with (pending (q_lr s) P l + (total rule ps - glr)) by (rewrite Err, Tr; lra).
      eapply (to_right s P l); eauto.
Qed.
End Levels.

(* ------------------------------------------------------------------ *)
(** * The loop *)

Lemma gauss_sum_calls f x h aw : forall sum l l' v, gauss_sum f x h aw sum l = (l', Ok v) -> length l' = (length l + 2 * length aw)%nat.
Proof.
  induction aw as [|[a w] t IH]; intros sum l l' v E; cbn [gauss_sum] in E.
  - inversion E; subst. cbn. lia.
  - unfold mbind at 1, ask at 1 in E. destruct (f l (x - a * h)) as [y1|e|]; try discriminate E.
    unfold mbind at 1, ask at 1 in E. destruct (f _ (x + a * h)) as [y2|e|]; try discriminate E.
    rewrite (IH _ _ _ _ E). cbn [length]. rewrite !app_length. cbn [length]. lia.
Qed.
Lemma gauss_calls f ng tab x h l l' v : gauss_table ng = Some tab -> gauss ng x h f l = (l', Ok v) -> length l' = (length l + ng)%nat.
Proof.
  intros Ht E. unfold gauss in E. rewrite Ht in E. unfold mbind in E. destruct (gauss_sum f x h tab 0 l) as [l1 r1] eqn:E1.
  destruct r1; inversion E; subst. rewrite (gauss_sum_calls _ _ _ _ _ _ _ _ E1).
  assert (ng = 2 * length tab)%nat; [|lia].
  unfold gauss_table in Ht. do 15 (destruct ng as [|ng]; [first [discriminate Ht | inversion Ht; reflexivity]|]). discriminate Ht.
Qed.

(** a failure of integrate other than a failure of the callback *)
Definition own_error (e : string) : Prop :=
  In e ["the lower and upper bounds must be different from each other"; "n_iteration_max must be ≥ 2";
        "the tolerance must be ≥ 10.0 * f64::EPSILON"; "n_gauss must be 6, 8, 10, 12, or 14";
        "the lower and upper bounds must not be so close one from another";
        "integrate failed to converge"; "quadrature.integrate cannot achieve the desired tolerance"]%string.

Lemma quad_loop_ok f g a b ng tab tol : answers f g -> gauss_table ng = Some tab -> forall n s P l l' r,
  ready a b (gauss_rule tab g) s P -> quad_loop f ng tol n s l = (l', r) ->
  match r with
  | Ok s' => finished a b (gauss_rule tab g) s' /\
      exists m, (1 <= m <= n)%nat /\ q_ni s' = (q_ni s + m)%nat /\ q_nf s' = (q_nf s + 2 * ng * m)%nat /\ length l' = (length l + 2 * ng * m)%nat
  | Err e => own_error e \/ exists l x, f l x = Err e
  | Panic => exists l x, f l x = Panic
  end.
Proof.
  intros Hg Ht. induction n as [|n IH]; intros s P l l' r Rd E; cbn [quad_loop] in E.
  - inversion E; subst. left. unfold own_error. cbn. auto 10.
  - pose proof Rd as ((L1 & L2 & L3 & L4 & L5 & L6 & L7 & Hh & Hr1 & Ha1 & Hlev) & Est & Err).
    unfold mbind at 1, ret at 1 in E. rewrite vgetA in E by lia.
    unfold mbind at 1, ret at 1 in E. rewrite vgetA in E by lia.
    set (A := nA (q_aa s) (q_l s)) in *. set (H := nA (q_hh s) (q_l s)) in *.
    unfold mbind at 1 in E. destruct (gauss ng (A + H) H f l) as [l1 r1] eqn:E1.
    pose proof (gauss_ok f g ng tab (A + H) H A (A + 2 * H) Hg Ht ltac:(field) ltac:(field) _ _ _ E1) as G1.
    destruct r1 as [gl|e|]; [|inversion E; subst; auto|inversion E; subst; auto].
    unfold mbind at 1 in E. destruct (gauss ng (A + 3 * H) H f l1) as [l2 r2] eqn:E2.
    pose proof (gauss_ok f g ng tab (A + 3 * H) H (A + 2 * H) (A + 4 * H) Hg Ht ltac:(field) ltac:(field) _ _ _ E2) as G2.
    destruct r2 as [grl|e|]; [|inversion E; subst; auto|inversion E; subst; auto].
    unfold mbind at 1, ret at 1 in E. rewrite vset_ok in E by lia. cbv zeta in E.
    match type of E with context [quad_next _ _ _ ?X] => set (s1 := X) in E end.
    assert (R1 : ready a b (gauss_rule tab g) s1 P).
    { unfold ready, s1. cbn [q_l q_aa q_hh q_vl q_gr q_lr q_est q_err]. unfold hi_of in *. cbn [q_aa q_hh]. splits; auto.
      unfold levels. cbn [q_l q_aa q_hh q_vl q_gr q_lr q_lmx]. rewrite upd_length. splits; auto; try lia.
      intros i Hi. unfold level_ok. cbn [q_l q_aa q_hh q_vl q_gr q_lr]. rewrite nA_upd_neq by lia. exact (Hlev i Hi). }
    assert (Eg : nA (q_gr s1) (q_l s1) = grl) by (unfold s1; cbn [q_gr q_l]; apply nA_upd_eq; lia).
    destruct (quad_next_ok a b (gauss_rule tab g) tol gl s1 P R1) as (done & s' & En & N1 & N2 & N3).
    { exact G1. } { rewrite Eg. exact G2. }
    rewrite Eg in En.
    pose proof (gauss_calls _ _ _ _ _ _ _ _ Ht E1) as K1. pose proof (gauss_calls _ _ _ _ _ _ _ _ Ht E2) as K2.
    unfold mbind at 1, ret at 1 in E. rewrite En in E.
    unfold s1 in N1, N2. cbn [q_nf q_ni] in N1, N2.
    destruct done.
    + inversion E; subst. split; auto. exists 1%nat. splits; lia.
    + destruct N3 as (P' & R2). specialize (IH _ _ _ _ _ R2 E). destruct r as [s2|e|]; auto.
      destruct IH as (F1 & m & M1 & M2 & M3 & M4). split; auto. exists (S m). splits; lia.
Qed.

(* ------------------------------------------------------------------ *)
(** * The theorems *)

(** the workspace has the right size: true of a new solver and preserved, since
    the parameters are public fields and the workspace is not *)
Definition workspace_ok (q : quadrature) : Prop :=
  length (w_aa q) = 61%nat /\ length (w_hh q) = 61%nat /\ length (w_vl q) = 61%nat /\ length (w_gr q) = 61%nat /\ length (w_lr q) = 61%nat.

Lemma map_const_repeat {A B} (l : list A) (c : B) : map (fun _ => c) l = repeat c (length l).
Proof. induction l; cbn; congruence. Qed.

Lemma quad_lmx_le a b : match quad_lmx a b with Ok lmx => (1 <= lmx <= 33)%nat | Err e => own_error e | Panic => True end.
Proof.
  unfold quad_lmx. assert (N_LMX = 33%nat) as -> by reflexivity.
  destruct (negb _); [|lia]. destruct (Rltb 0 _); [|lia]. destruct (Rleb _ _); [|lia].
  unfold usub. destruct (_ <=? N_BIT)%nat; [|exact I]. cbn [bind]. destruct (7 <=? _)%nat; [|exact I]. cbn [bind].
  destruct (Nat.ltb_spec (Nat.min 33 (N_BIT - as_usize (0.5 - ln (Rabs (1 - a / b)) / ln 2) - 7)) 1).
  - unfold own_error. cbn. auto 10.
  - lia.
Qed.

Lemma quad_validate_ok q : match quad_validate q with Ok _ => exists tab, gauss_table (n_gauss q) = Some tab | Err e => own_error e | Panic => False end.
Proof.
  unfold quad_validate, own_error. destruct (_ <? 2)%nat; [cbn; auto 10|]. destruct (Rltb _ _); [cbn; auto 10|].
  destruct (existsb _ _) eqn:E; [|cbn; auto 10].
  apply existsb_exists in E. destruct E as (x & Hx & E). apply Nat.eqb_eq in E. rewrite E. cbn in Hx.
  destruct Hx as [<-|[<-|[<-|[<-|[<-|[]]]]]]; eexists; reflexivity.
Qed.

Lemma quad_integrate_cases f g q a b l l' r : answers f g -> workspace_ok q -> quad_integrate q a b f l = (l', r) ->
  match r with
  | Ok o => exists tab ps, gauss_table (n_gauss q) = Some tab /\
      tiling a b (gauss_rule tab g) a b ps (o_value o) /\ o_error o = total (gauss_rule tab g) ps - o_value o /\
      (1 <= o_ni o <= n_iteration_max q)%nat /\ o_nf o = (n_gauss q * (1 + 2 * o_ni o))%nat /\ length l' = (length l + o_nf o)%nat
  | Err e => own_error e \/ exists l x, f l x = Err e
  | Panic => quad_lmx a b = Panic \/ exists l x, f l x = Panic
  end.
Proof.
  intros Hg (W1 & W2 & W3 & W4 & W5) E. unfold quad_integrate in E.
  destruct (Rltb _ _). { inversion E; subst. left. unfold own_error. cbn. auto. }
  unfold mbind at 1, ret at 1 in E. pose proof (quad_validate_ok q) as HV. destruct (quad_validate q) as [u|e|]; [|inversion E; subst; auto|easy].
  destruct HV as (tab & Ht). cbv zeta in E. rewrite !map_const_repeat, W1, W2, W3, W4, W5 in E.
  unfold mbind at 1, ret at 1 in E. pose proof (quad_lmx_le a b) as HL.
  destruct (quad_lmx a b) as [lmx|e|]; [|inversion E; subst; auto|inversion E; subst; auto].
  unfold mbind at 1, ret at 1 in E. rewrite vset_ok in E by (rewrite repeat_length; lia).
  unfold mbind at 1, ret at 1 in E. rewrite vset_ok in E by (rewrite repeat_length; lia).
  unfold mbind at 1, ret at 1 in E. rewrite vset_ok in E by (rewrite repeat_length; lia).
  unfold mbind at 1, ret at 1 in E. rewrite vgetA, nA_upd_eq in E by (rewrite ?upd_length, repeat_length; lia).
  unfold mbind at 1, ret at 1 in E. rewrite vgetA, nA_upd_eq in E by (rewrite ?upd_length, repeat_length; lia).
  unfold mbind at 1 in E.
  destruct (gauss (n_gauss q) (a + 2 * ((b - a) / 4)) (2 * ((b - a) / 4)) f l) as [l1 r1] eqn:E1.
  pose proof (gauss_ok f g (n_gauss q) tab (a + 2 * ((b - a) / 4)) (2 * ((b - a) / 4)) a b Hg Ht ltac:(field) ltac:(field) _ _ _ E1) as G1.
  destruct r1 as [est|e|]; [|inversion E; subst; auto|inversion E; subst; auto].
  pose proof (gauss_calls _ _ _ _ _ _ _ _ Ht E1) as K1.
  unfold mbind at 1 in E. match type of E with context [quad_loop _ _ ?t _ ?X] => set (s0 := X) in E; set (tol := t) in * end.
  destruct (quad_loop f (n_gauss q) tol (n_iteration_max q) s0 l1) as [l2 r2] eqn:E2.
  assert (R0 : ready a b (gauss_rule tab g) s0 (fun _ => [])).
  { unfold ready, s0. cbn [q_l q_aa q_hh q_vl q_gr q_lr q_est q_err]. unfold hi_of. cbn [q_aa q_hh].
    rewrite !nA_upd_eq by (rewrite repeat_length; lia). splits.
    - unfold levels. cbn [q_l q_aa q_hh q_vl q_gr q_lr q_lmx]. rewrite !upd_length, !repeat_length. splits; auto; try lia.
      intros i Hi. replace i with 1%nat by lia. rewrite nA_upd_eq by (rewrite repeat_length; lia). cbn [Nat.sub pow]. field.
    - rewrite G1. f_equal. field.
    - reflexivity. }
  pose proof (quad_loop_ok f g a b (n_gauss q) tab tol Hg Ht _ _ _ _ _ _ R0 E2) as HQ.
  destruct r2 as [s2|e|]; [|inversion E; subst; auto|inversion E; subst; auto].
  destruct HQ as ((ps & T1 & T2) & m & M1 & M2 & M3 & M4).
  destruct (q_mxl s2 && _)%bool; inversion E; subst.
  - left. unfold own_error. cbn. auto 10.
  - exists tab, ps. cbn [o_value o_error o_nf o_ni]. unfold s0 in M2, M3. cbn [q_ni q_nf] in M2, M3.
    rewrite M2, M3, M4, K1. splits; auto; lia.
Qed.

(** C26: the value is the sum, over pieces that follow one another from a to b
    and whose widths are binary fractions of b - a, of the Gauss rule on both
    halves of the piece; the reported error is the difference between the rule on
    the pieces and the value; n_function is the number of calls that were made,
    and is determined by the number of iterations. *)
Theorem C26_tiling f g q a b l l' o tab : answers f g -> workspace_ok q -> gauss_table (n_gauss q) = Some tab ->
  quad_integrate q a b f l = (l', Ok o) ->
  exists ps, chain a ps b /\ Forall (fun p => exists k, (k <= 32)%nat /\ snd p - fst p = (b - a) / 2 ^ k) ps /\
    o_value o = total (halves (gauss_rule tab g)) ps /\
    o_error o = total (gauss_rule tab g) ps - total (halves (gauss_rule tab g)) ps /\
    (1 <= o_ni o <= n_iteration_max q)%nat /\ o_nf o = (n_gauss q * (1 + 2 * o_ni o))%nat /\ length l' = (length l + o_nf o)%nat.
Proof.
  intros Hg Hw Ht E. pose proof (quad_integrate_cases f g q a b l l' _ Hg Hw E) as (tab' & ps & Ht' & (T1 & T2 & T3) & H).
  rewrite Ht in Ht'. inversion Ht'; subst tab'. exists ps. rewrite <- T3. splits; try tauto.
Qed.

(** C26: apart from failures of the callback, integrate either answers or reports
    one of its own errors, except for the underflow in the handling of close
    bounds (refuted below). *)
Theorem C26_errors f g q a b l l' r : answers f g -> workspace_ok q -> quad_lmx a b <> Panic -> (forall l x, f l x <> Panic) ->
  quad_integrate q a b f l = (l', r) ->
  (exists o, r = Ok o) \/ (exists e, r = Err e /\ (own_error e \/ exists l x, f l x = Err e)).
Proof.
  intros Hg Hw Hl Hf E. pose proof (quad_integrate_cases f g q a b l l' r Hg Hw E) as H. destruct r as [o|e|]; eauto.
  destruct H as [|(l1 & x & H)]; [easy|]. now apply Hf in H.
Qed.

Lemma total_le (e : R) (r1 r2 : R -> R -> R) (F : R -> R) lo hi ps : 0 <= e -> lo <= hi ->
  chain lo ps hi -> Forall (fun p => fst p <= snd p) ps ->
  (forall c d, lo <= c -> c <= d -> d <= hi -> Rabs (r1 c d - (F d - F c)) <= e * (d - c)) ->
  Rabs (total r1 ps - (F hi - F lo)) <= e * (hi - lo).
Proof.
  intros He Hlh Hc Hf H. 
  assert (G : forall ps x, lo <= x -> chain x ps hi -> Forall (fun p => fst p <= snd p) ps -> x <= hi /\ Rabs (total r1 ps - (F hi - F x)) <= e * (hi - x)).
  { clear ps Hc Hf. induction ps as [|[c d] t IH]; intros x Hx Hc Hf; cbn in Hc.
    - subst. split; [lra|]. cbn. replace (0 - (F hi - F hi)) with 0 by lra. rewrite Rabs_R0. lra.
    - destruct Hc as [-> Hc]. inversion Hf as [|y z Hy Hz]; subst. cbn in Hy. destruct (IH d ltac:(lra) Hc Hz) as [D1 D2]. split; [lra|].
      change (total r1 ((x, d) :: t)) with (r1 x d + total r1 t).
      replace (r1 x d + total r1 t - (F hi - F x)) with ((r1 x d - (F d - F x)) + (total r1 t - (F hi - F d))) by lra.
      eapply Rle_trans; [apply Rabs_triang|]. specialize (H x d Hx Hy D1). lra. }
  apply G; auto; lra.
Qed.

Lemma dyadic_ordered a b ps : a <= b -> Forall (fun p : R * R => exists k, (k <= 32)%nat /\ snd p - fst p = (b - a) / 2 ^ k) ps -> Forall (fun p => fst p <= snd p) ps.
Proof.
  intros H. apply Forall_impl. intros p (k & _ & E). pose proof (pow_lt 2 k ltac:(lra)).
  assert (0 <= (b - a) / 2 ^ k) by (apply Rmult_le_pos; [lra|left; now apply Rinv_0_lt_compat]). lra.
Qed.

(** C26: if on every subinterval of [a, b] the rule is off by at most e times the
    width of the subinterval, the answer is off by at most e (b - a). *)
Theorem C26_accuracy f g q a b l l' o tab F e : answers f g -> workspace_ok q -> gauss_table (n_gauss q) = Some tab -> a <= b -> 0 <= e ->
  (forall c d, a <= c -> c <= d -> d <= b -> Rabs (gauss_rule tab g c d - (F d - F c)) <= e * (d - c)) ->
  quad_integrate q a b f l = (l', Ok o) -> Rabs (o_value o - (F b - F a)) <= e * (b - a) /\ Rabs (o_error o) <= 2 * e * (b - a).
Proof.
  intros Hg Hw Ht Hab He Hr E. destruct (C26_tiling f g q a b l l' o tab Hg Hw Ht E) as (ps & T1 & T2 & T3 & T4 & _).
  pose proof (dyadic_ordered a b ps Hab T2) as T5.
  assert (Hh : forall c d, a <= c -> c <= d -> d <= b -> Rabs (halves (gauss_rule tab g) c d - (F d - F c)) <= e * (d - c)).
  { intros c d H1 H2 H3. unfold halves. set (m := (c + d) / 2). assert (m = (c + d) / 2) by auto.
    pose proof (Hr c m ltac:(lra) ltac:(lra) ltac:(lra)). pose proof (Hr m d ltac:(lra) ltac:(lra) ltac:(lra)).
    replace (gauss_rule tab g c m + gauss_rule tab g m d - (F d - F c)) with ((gauss_rule tab g c m - (F m - F c)) + (gauss_rule tab g m d - (F d - F m))) by lra.
    eapply Rle_trans; [apply Rabs_triang|]. lra. }
  pose proof (total_le e _ (halves (gauss_rule tab g)) F a b ps He Hab T1 T5 Hh) as A1.
  pose proof (total_le e _ (halves (gauss_rule tab g)) F a b ps He Hab T1 T5 Hr) as A2.
  rewrite <- T3 in A1. split; auto. rewrite T4, <- T3.
  replace (total (gauss_rule tab g) ps - o_value o) with ((total (gauss_rule tab g) ps - (F b - F a)) + - (o_value o - (F b - F a))) by lra.
  eapply Rle_trans; [apply Rabs_triang|]. rewrite Rabs_Ropp. lra.
Qed.

(** C26: where the rule is exact, so is the answer, with no estimated error. *)
Theorem C26_exact f g q a b l l' o tab F : answers f g -> workspace_ok q -> gauss_table (n_gauss q) = Some tab -> a <= b ->
  (forall c d, a <= c -> c <= d -> d <= b -> gauss_rule tab g c d = F d - F c) ->
  quad_integrate q a b f l = (l', Ok o) -> o_value o = F b - F a /\ o_error o = 0.
Proof.
  intros Hg Hw Ht Hab Hr E.
  destruct (C26_accuracy f g q a b l l' o tab F 0 Hg Hw Ht Hab (Rle_refl 0)) as [A1 A2]; auto.
  { intros c d H1 H2 H3. rewrite Hr by auto. rewrite Rminus_eq_0, Rabs_R0. lra. }
  rewrite Rmult_0_l in A1. rewrite Rmult_0_r, Rmult_0_l in A2.
  split; [|now apply Rabs_eq_0; apply Rle_antisym; [|apply Rabs_pos]].
  apply Rminus_diag_uniq. apply Rabs_eq_0. apply Rle_antisym; [auto|apply Rabs_pos].
Qed.

(** C26: the answer does not depend on what an earlier integration left in the
    workspace. *)
Theorem C26_history q q' a b f l : workspace_ok q -> workspace_ok q' ->
  n_iteration_max q = n_iteration_max q' -> tolerance q = tolerance q' -> n_gauss q = n_gauss q' ->
  quad_integrate q a b f l = quad_integrate q' a b f l.
Proof.
  intros (W1 & W2 & W3 & W4 & W5) (V1 & V2 & V3 & V4 & V5) E1 E2 E3. unfold quad_integrate, quad_validate.
  rewrite !map_const_repeat, W1, W2, W3, W4, W5, V1, V2, V3, V4, V5, E1, E2, E3. reflexivity.
Qed.

(* ------------------------------------------------------------------ *)
(** * The tables: the rule with n points integrates polynomials of degree < 2n *)

Definition z6_A : list Z := [762322520704855808; 275109191047100576; 1075064155315113728]%Z.
Definition z6_W : list Z := [415929775602992896; 539468037474056704; 197523691529797376]%Z.
Definition z8_A : list Z := [211485744023103648; 605897616760396288; 918493913809555200; 1107138826211832704]%Z.
Definition z8_W : list Z := [418145933229084864; 361679138170701120; 256387876838011584; 116708556369049408]%Z.
Definition z10_A : list Z := [171640426896052032; 499670869889169152; 783305901727599616; 997350158303328640; 1122837780204448768]%Z.
Definition z10_W : list Z := [340716233805904832; 310443391167430528; 252589378710767136; 172305674328210592; 76866826594533872]%Z.
Definition z12_A : list Z := [144384289768086656; 424080845266773824; 677131499538742400; 887637349532932864; 1042376227555662336; 1131662363298578560]%Z.
Definition z12_W : list Z := [287246986927539360; 269198566540269216; 234236095304658496; 184557747399143904; 123292648628164624; 54389459807071352]%Z.
Definition z14_A : list Z := [124578874043886336; 367911512522997888; 594041233076669184; 792394769921098880; 953698184782995968; 1070412543002890112; 1137107812692100480]%Z.
Definition z14_W : list Z := [248182325822211712; 236577721536569632; 213911208382607296; 181242912008986176; 140101373355170832; 92415982454637520; 40489981046663832]%Z.

Definition z60 (l : list Z) : list R := map (fun z => IZR z / 2 ^ 60) l.

Lemma tables_z :
  (G6_A = z60 z6_A /\ G6_W = z60 z6_W) /\ (G8_A = z60 z8_A /\ G8_W = z60 z8_W) /\ (G10_A = z60 z10_A /\ G10_W = z60 z10_W) /\
  (G12_A = z60 z12_A /\ G12_W = z60 z12_W) /\ (G14_A = z60 z14_A /\ G14_W = z60 z14_W).
Proof.
  splits; unfold z60; cbn [map z6_A z6_W z8_A z8_W z10_A z10_W z12_A z12_W z14_A z14_W]; 
    unfold G6_A, G6_W, G8_A, G8_W, G10_A, G10_W, G12_A, G12_W, G14_A, G14_W; repeat (apply f_equal2; [lra|]); reflexivity.
Qed.

(** the moments, scaled: the rule integrates t^j up to 10^-16 *)
Definition zmoment (A W : list Z) (j : nat) : Z := fold_right (fun aw s => snd aw * fst aw ^ Z.of_nat j + s)%Z 0%Z (combine A W).
Definition moment_ok (A W : list Z) (j : nat) : bool :=
  let D := (2 ^ (60 * Z.of_nat (S j)))%Z in
  (Z.abs (zmoment A W j * Z.of_nat (S j) - D) * (2 * 10 ^ 16) <=? Z.of_nat (S j) * D)%Z.
Definition even_ok (A W : list Z) (n : nat) : bool := forallb (fun i => moment_ok A W (2 * i)) (seq 0 n).

Lemma tables_moments :
  even_ok z6_A z6_W 6 = true /\ even_ok z8_A z8_W 8 = true /\ even_ok z10_A z10_W 10 = true /\
  even_ok z12_A z12_W 12 = true /\ even_ok z14_A z14_W 14 = true.
Proof. splits; vm_compute; reflexivity. Qed.

(** value of the rule on t^j and the integral of t^j over [-1, 1] *)
Definition moment (tab : list (R * R)) (j : nat) : R := fold_right (fun aw s => snd aw * ((- fst aw) ^ j + fst aw ^ j) + s) 0 tab.
Definition exact_moment (j : nat) : R := (1 - (-1) ^ S j) / INR (S j).

Lemma moment_z A W j : length A = length W ->
  fold_right (fun aw s => snd aw * fst aw ^ j + s) 0 (combine (z60 A) (z60 W)) = IZR (zmoment A W j) / (2 ^ 60) ^ S j.
Proof.
  intros _. unfold zmoment, z60. assert (E : 2 ^ 60 <> 0) by (apply pow_nonzero; lra). set (T := 2 ^ 60) in *. clearbody T.
  revert W. induction A as [|a A IH]; intros W.
  - cbn. unfold Rdiv. now rewrite Rmult_0_l.
  - destruct W as [|w W]. { cbn [combine map fold_right]. unfold Rdiv. now rewrite Rmult_0_l. }
    cbn [map combine fold_right fst snd]. rewrite IH. rewrite plus_IZR, mult_IZR, <- pow_IZR.
    unfold Rdiv. rewrite (Rpow_mult_distr (IZR a)), pow_inv by auto. cbn [pow]. assert (T ^ j <> 0) by now apply pow_nonzero. field. auto.
Qed.

Lemma moment_even tab i : moment tab (2 * i) = 2 * fold_right (fun aw s => snd aw * fst aw ^ (2 * i) + s) 0 tab.
Proof.
  unfold moment. induction tab as [|[a w] t IH]; cbn [fold_right fst snd]; [lra|]. rewrite IH.
  replace ((- a) ^ (2 * i)) with (a ^ (2 * i)); [lra|]. rewrite !pow_mult. f_equal. ring.
Qed.
Lemma moment_odd tab i : moment tab (S (2 * i)) = 0.
Proof.
  unfold moment. induction tab as [|[a w] t IH]; cbn [fold_right fst snd]; [lra|]. rewrite IH.
  cbn [pow]. rewrite !pow_mult. replace ((- a) ^ 2) with (a ^ 2) by ring. ring.
Qed.

Lemma moment_ok_R A W j : length A = length W -> moment_ok A W j = true ->
  Rabs (2 * fold_right (fun aw s => snd aw * fst aw ^ j + s) 0 (combine (z60 A) (z60 W)) - 2 / INR (S j)) <= 1e-16.
Proof.
  intros HL H. unfold moment_ok in H. cbv zeta in H. apply Z.leb_le in H. rewrite moment_z by auto.
  apply IZR_le in H. rewrite !mult_IZR, abs_IZR, minus_IZR, mult_IZR, <- INR_IZR_INZ in H.
  assert (ED : IZR (2 ^ (60 * Z.of_nat (S j))) = (2 ^ 60) ^ S j).
  { replace (60 * Z.of_nat (S j))%Z with (Z.of_nat (60 * S j)) by lia. rewrite <- pow_IZR. now rewrite pow_mult. }
  rewrite ED in H. set (D := (2 ^ 60) ^ S j) in *. set (Zm := IZR (zmoment A W j)) in *. set (J := INR (S j)) in *.
  assert (HD : 0 < D) by (apply pow_lt, pow_lt; lra). assert (HJ : 0 < J) by (unfold J; apply lt_0_INR; lia).
  replace (2 * (Zm / D) - 2 / J) with ((Zm * J - D) * (2 / (D * J))) by (field; lra).
  assert (0 < 2 / (D * J)) by (apply Rdiv_lt_0_compat; [lra|now apply Rmult_lt_0_compat]).
  rewrite Rabs_mult, (Rabs_pos_eq (2 / (D * J))) by lra.
  assert (E : 1e-16 = (J * D / (2 * IZR (10 ^ 16))) * (2 / (D * J))).
  { replace (IZR (10 ^ 16)) with 10000000000000000 by (apply f_equal; reflexivity). field_simplify; [lra|lra]. }
  rewrite E. apply Rmult_le_compat_r; [lra|].
  assert (0 < 2 * IZR (10 ^ 16)) by (apply Rmult_lt_0_compat; [lra|apply IZR_lt; reflexivity]).
  apply Rmult_le_reg_r with (2 * IZR (10 ^ 16)); [auto|]. 
  replace (J * D / (2 * IZR (10 ^ 16)) * (2 * IZR (10 ^ 16))) with (J * D) by (field; lra). exact H.
Qed.

Lemma table_cases ng tab : gauss_table ng = Some tab ->
  (ng = 6%nat /\ tab = combine G6_A G6_W) \/ (ng = 8%nat /\ tab = combine G8_A G8_W) \/ (ng = 10%nat /\ tab = combine G10_A G10_W) \/
  (ng = 12%nat /\ tab = combine G12_A G12_W) \/ (ng = 14%nat /\ tab = combine G14_A G14_W).
Proof.
  unfold gauss_table. do 15 (destruct ng as [|ng]; [intros H; first [discriminate H | injection H as <-; tauto]|]). discriminate.
Qed.

(** the moments of all the rules *)
Lemma moments ng tab j : gauss_table ng = Some tab -> (j < 2 * ng)%nat -> Rabs (moment tab j - exact_moment j) <= 1e-16.
Proof.
  intros Ht Hj. 
  assert (K : exists A W, tab = combine (z60 A) (z60 W) /\ length A = length W /\ even_ok A W ng = true).
  { destruct tables_z as ((T1 & T2) & (T3 & T4) & (T5 & T6) & (T7 & T8) & T9 & T10). destruct tables_moments as (M1 & M2 & M3 & M4 & M5).
    destruct (table_cases ng tab Ht) as [[-> ->]|[[-> ->]|[[-> ->]|[[-> ->]|[-> ->]]]]].
    - rewrite T1, T2. exists z6_A, z6_W. auto.
    - rewrite T3, T4. exists z8_A, z8_W. auto.
    - rewrite T5, T6. exists z10_A, z10_W. auto.
    - rewrite T7, T8. exists z12_A, z12_W. auto.
    - rewrite T9, T10. exists z14_A, z14_W. auto. }
  clear Ht. destruct K as (A & W & -> & HL & Hev). unfold exact_moment.
  destruct (Nat.Even_or_Odd j) as [[i Ei]|[i Ei]].
  - subst j. rewrite moment_even. 
    assert (E1 : (-1) ^ S (2 * i) = -1) by (cbn [pow]; rewrite pow_1_even; lra). rewrite E1. replace (1 - -1) with 2 by lra.
    apply moment_ok_R; auto. unfold even_ok in Hev. rewrite forallb_forall in Hev. apply Hev. apply in_seq. lia.
  - replace j with (S (2 * i)) by lia. rewrite moment_odd. replace (S (S (2 * i))) with (2 * (S i))%nat by lia. rewrite pow_1_even.
    replace (0 - (1 - 1) / INR (2 * S i)) with 0; [rewrite Rabs_R0; lra|]. unfold Rdiv. lra.
Qed.

(* ------------------------------------------------------------------ *)
(** * Polynomials *)

Fixpoint peval (p : list R) (x : R) : R := match p with [] => 0 | c :: q => c + x * peval q x end.
(** sum of |c_k| M^k *)
Fixpoint pbound (p : list R) (M : R) : R := match p with [] => 0 | c :: q => Rabs c + M * pbound q M end.
Fixpoint padd (p q : list R) : list R := match p, q with [], _ => q | _, [] => p | c :: p', d :: q' => (c + d) :: padd p' q' end.
Definition pscale (k : R) (p : list R) : list R := map (fun c => k * c) p.
(** p (x + h t) as a polynomial in t *)
Fixpoint pcomp (p : list R) (x h : R) : list R :=
  match p with
  | [] => []
  | c :: q => let r := pcomp q x h in padd [c] (padd (pscale x r) (0 :: pscale h r))
  end.

Lemma peval_padd p q x : peval (padd p q) x = peval p x + peval q x.
Proof. revert q. induction p as [|c p IH]; intros [|d q]; cbn; try lra. rewrite IH. lra. Qed.
Lemma peval_pscale k p x : peval (pscale k p) x = k * peval p x.
Proof. induction p as [|c p IH]; cbn; [lra|]. unfold pscale in IH. rewrite IH. lra. Qed.
Lemma peval_pcomp p x h t : peval (pcomp p x h) t = peval p (x + h * t).
Proof. induction p as [|c p IH]; [reflexivity|]. cbn [pcomp]. cbv zeta. rewrite !peval_padd, peval_pscale. cbn [peval]. rewrite peval_pscale, IH. lra. Qed.
Lemma padd_length p q : length (padd p q) = Nat.max (length p) (length q).
Proof. revert q. induction p as [|c p IH]; intros [|d q]; cbn; try lia. rewrite IH. lia. Qed.
Lemma pcomp_length p x h : length (pcomp p x h) = length p.
Proof.
  induction p as [|c p IH]; [reflexivity|]. cbn [pcomp]. cbv zeta. rewrite !padd_length. cbn [length]. unfold pscale. rewrite !map_length, IH. lia.
Qed.
Lemma pbound1_padd p q : pbound (padd p q) 1 <= pbound p 1 + pbound q 1.
Proof. revert q. induction p as [|c p IH]; intros [|d q]; cbn; try lra. specialize (IH q). pose proof (Rabs_triang c d). lra. Qed.
Lemma pbound1_pscale k p : pbound (pscale k p) 1 = Rabs k * pbound p 1.
Proof. induction p as [|c p IH]; cbn; [lra|]. unfold pscale in IH. rewrite IH, Rabs_mult. lra. Qed.
Lemma pbound_pos p M : 0 <= M -> 0 <= pbound p M.
Proof. intros H. induction p as [|c p IH]; cbn; [lra|]. pose proof (Rabs_pos c). nra. Qed.
Lemma pbound_pcomp p x h M : Rabs x + Rabs h <= M -> pbound (pcomp p x h) 1 <= pbound p M.
Proof.
  intros HM. pose proof (Rabs_pos x). pose proof (Rabs_pos h). induction p as [|c p IH]; [cbn; lra|]. cbn [pcomp]. cbv zeta.
  eapply Rle_trans; [apply pbound1_padd|]. cbn [pbound]. rewrite Rmult_0_r, Rplus_0_r. apply Rplus_le_compat_l.
  eapply Rle_trans; [apply pbound1_padd|]. cbn [pbound]. rewrite !pbound1_pscale, Rabs_R0.
  assert (0 <= pbound (pcomp p x h) 1) by (apply pbound_pos; lra). nra.
Qed.

(** the integral of a polynomial *)
Fixpoint pint (p : list R) (j : nat) : R := match p with [] => 0 | c :: q => c * exact_moment j + pint q (S j) end.
Fixpoint pgauss (tab : list (R * R)) (p : list R) (j : nat) : R := match p with [] => 0 | c :: q => c * moment tab j + pgauss tab q (S j) end.

Lemma peval_cont p x : continuous (peval p) x.
Proof.
  apply (ex_derive_continuous (peval p)). induction p as [|c p IH]; cbn [peval]; auto_derive; auto.
Qed.

Lemma pint_RInt p : forall j, is_RInt (fun t => t ^ j * peval p t) (-1) 1 (pint p j).
Proof.
  induction p as [|c p IH]; intros j; cbn [peval pint].
  - apply is_RInt_ext with (fun _ : R => 0). { intros. symmetry. apply Rmult_0_r. }
    pose proof (@is_RInt_const R_NormedModule (-1) 1 0) as H. unfold scal in H; cbn in H. unfold mult in H; cbn in H. rewrite Rmult_0_r in H. exact H.
  - apply is_RInt_ext with (fun t => plus (scal c (t ^ j)) (t ^ S j * peval p t)). { intros. unfold plus, scal; cbn. unfold mult; cbn. ring. }
    apply (is_RInt_plus (fun t => scal c (t ^ j))); [|apply IH]. apply (is_RInt_scal (fun t => t ^ j)).
    replace (exact_moment j) with (minus (1 ^ S j / INR (S j)) ((-1) ^ S j / INR (S j))).
    + apply (is_RInt_derive (fun t => t ^ S j / INR (S j))).
      * intros t _. auto_derive; auto. change (match j with O => 1 | S _ => INR j + 1 end) with (INR (S j)) || idtac. field. apply (not_0_INR (S j)). lia.
      * intros t _. apply (ex_derive_continuous (fun t : R => t ^ j)). auto_derive. auto.
    + unfold minus, plus, opp, exact_moment; cbn -[pow INR]. rewrite pow1. field. apply not_0_INR. lia.
Qed.

Lemma pgauss_fold tab p j :
  fold_right (fun aw s => snd aw * ((- fst aw) ^ j * peval p (- fst aw) + fst aw ^ j * peval p (fst aw)) + s) 0 tab = pgauss tab p j.
Proof.
  revert j. induction p as [|c p IH]; intros j; cbn [peval pgauss].
  - induction tab as [|aw t IHt]; cbn [fold_right]; [reflexivity|]. rewrite IHt. ring.
  - rewrite <- IH. unfold moment. clear IH. induction tab as [|aw t IHt]; cbn [fold_right]; [ring|]. rewrite IHt. cbn [pow]. ring.
Qed.

(** the rule on a polynomial in the reference coordinate *)
Lemma gauss_rule_poly tab p lo hi : gauss_rule tab (peval p) lo hi = (hi - lo) / 2 * pgauss tab (pcomp p ((lo + hi) / 2) ((hi - lo) / 2)) 0.
Proof.
  unfold gauss_rule. cbv zeta. f_equal. rewrite <- pgauss_fold. set (x := (lo + hi) / 2). set (h := (hi - lo) / 2).
  induction tab as [|aw t IH]; cbn [fold_right]; [reflexivity|]. rewrite IH. rewrite !peval_pcomp. cbn [pow]. 
  replace (x + h * - fst aw) with (x - fst aw * h) by ring. replace (x + h * fst aw) with (x + fst aw * h) by ring. ring.
Qed.

Lemma RInt_poly p lo hi : is_RInt (peval p) lo hi ((hi - lo) / 2 * pint (pcomp p ((lo + hi) / 2) ((hi - lo) / 2)) 0).
Proof.
  set (x := (lo + hi) / 2). set (h := (hi - lo) / 2).
  destruct (Req_dec h 0) as [E|E].
  - rewrite E, Rmult_0_l. replace hi with lo by (unfold h in E; lra). apply (is_RInt_point (peval p)).
  - pose proof (pint_RInt (pcomp p x h) 0) as H.
    assert (E1 : lo = h * -1 + x) by (unfold h, x; field). assert (E2 : hi = h * 1 + x) by (unfold h, x; field).
    assert (X : ex_RInt (peval p) lo hi) by (apply (ex_RInt_continuous (V := R_CompleteNormedModule)); intros; apply peval_cont).
    replace (h * pint (pcomp p x h) 0) with (RInt (peval p) lo hi); [now apply (RInt_correct (V := R_CompleteNormedModule))|].
    rewrite E1, E2. rewrite E1, E2 in X. pose proof (is_RInt_comp_lin (peval p) h x (-1) 1 _ (RInt_correct (V := R_CompleteNormedModule) _ _ _ X)) as H2.
    apply (is_RInt_unique (V := R_CompleteNormedModule)) in H2. rewrite <- H2.
    assert (H3 : is_RInt (fun t => scal h (peval p (h * t + x))) (-1) 1 (scal h (pint (pcomp p x h) 0))).
    { apply (is_RInt_scal (fun t => peval p (h * t + x))). eapply is_RInt_ext; [|exact H]. intros t _. cbv beta. rewrite peval_pcomp. cbn [pow]. rewrite Rmult_1_l. f_equal. ring. }
    apply (is_RInt_unique (V := R_CompleteNormedModule)) in H3. exact H3.
Qed.

Lemma pgauss_pint ng tab p : gauss_table ng = Some tab -> forall j, (length p + j <= 2 * ng)%nat ->
  Rabs (pgauss tab p j - pint p j) <= 1e-16 * pbound p 1.
Proof.
  intros Ht. induction p as [|c p IH]; intros j Hj; cbn [pgauss pint pbound length] in *.
  - rewrite Rminus_0_r, Rabs_R0. lra.
  - specialize (IH (S j) ltac:(lia)). pose proof (moments ng tab j Ht ltac:(lia)) as HM.
    replace (c * moment tab j + pgauss tab p (S j) - (c * exact_moment j + pint p (S j)))
      with (c * (moment tab j - exact_moment j) + (pgauss tab p (S j) - pint p (S j))) by ring.
    eapply Rle_trans; [apply Rabs_triang|]. rewrite Rabs_mult. pose proof (Rabs_pos c). nra.
Qed.

Lemma mid_half lo hi M : Rabs lo <= M -> Rabs hi <= M -> Rabs ((lo + hi) / 2) + Rabs ((hi - lo) / 2) <= M.
Proof. intros H1 H2. unfold Rabs in *. repeat destruct Rcase_abs; lra. Qed.

(** C26: on an interval within [-M, M] the rule with n points integrates a
    polynomial of degree at most 2n - 1 up to 10^-16 times half the width times
    the sum of |c_k| M^k. *)
Theorem C26_rule_polynomial ng tab p lo hi M : gauss_table ng = Some tab -> (length p <= 2 * ng)%nat -> Rabs lo <= M -> Rabs hi <= M ->
  Rabs (gauss_rule tab (peval p) lo hi - RInt (peval p) lo hi) <= Rabs (hi - lo) / 2 * (1e-16 * pbound p M).
Proof.
  intros Ht Hp Hl Hh. rewrite gauss_rule_poly. rewrite (is_RInt_unique (V := R_CompleteNormedModule) _ _ _ _ (RInt_poly p lo hi)).
  set (x := (lo + hi) / 2). set (h := (hi - lo) / 2). rewrite <- Rmult_minus_distr_l, Rabs_mult.
  replace (Rabs (hi - lo) / 2) with (Rabs h). 2: { unfold h, Rdiv. rewrite Rabs_mult, (Rabs_pos_eq (/ 2)); lra. }
  apply Rmult_le_compat_l; [apply Rabs_pos|].
  eapply Rle_trans; [apply (pgauss_pint ng tab _ Ht); rewrite pcomp_length; lia|].
  apply Rmult_le_compat_l; [lra|]. apply pbound_pcomp. now apply mid_half.
Qed.

(** C26: so is the answer of the adaptive algorithm. *)
Theorem C26_polynomial f p q a b l l' o tab M : answers f (peval p) -> workspace_ok q -> gauss_table (n_gauss q) = Some tab ->
  (length p <= 2 * n_gauss q)%nat -> a <= b -> Rabs a <= M -> Rabs b <= M ->
  quad_integrate q a b f l = (l', Ok o) ->
  Rabs (o_value o - RInt (peval p) a b) <= (b - a) / 2 * (1e-16 * pbound p M) /\ Rabs (o_error o) <= (b - a) * (1e-16 * pbound p M).
Proof.
  intros Hg Hw Ht Hp Hab Ha Hb E.
  assert (HM : 0 <= M) by (pose proof (Rabs_pos a); lra). pose proof (pbound_pos p M HM) as HP.
  assert (X : forall c d, ex_RInt (peval p) c d) by (intros; apply (ex_RInt_continuous (V := R_CompleteNormedModule)); intros; apply peval_cont).
  destruct (C26_accuracy f (peval p) q a b l l' o tab (fun y => RInt (peval p) a y) (/ 2 * (1e-16 * pbound p M)) Hg Hw Ht Hab) as [A1 A2]; auto.
  - apply Rmult_le_pos; [lra|]. apply Rmult_le_pos; lra.
  - intros c d H1 H2 H3. replace (RInt (peval p) a d - RInt (peval p) a c) with (RInt (peval p) c d).
    + assert (B : forall y, a <= y -> y <= b -> Rabs y <= M) by (intros y; clear - Ha Hb; unfold Rabs in *; repeat destruct Rcase_abs; lra).
      pose proof (C26_rule_polynomial _ tab p c d M Ht Hp (B c ltac:(lra) ltac:(lra)) (B d ltac:(lra) ltac:(lra))) as R1.
      rewrite (Rabs_pos_eq (d - c)) in R1 by lra. lra.
    + pose proof (RInt_Chasles (V := R_CompleteNormedModule) (peval p) a c d (X _ _) (X _ _)) as C.
      change (RInt (peval p) a c + RInt (peval p) c d = RInt (peval p) a d) in C. lra.
  - rewrite RInt_point in A1. change (@zero _) with 0 in A1. rewrite Rminus_0_r in A1. split; lra.
Qed.

(* ------------------------------------------------------------------ *)
(** * Findings and examples *)

Lemma as_usize_val x n : IZR (Z.of_nat n) <= x < IZR (Z.of_nat n) + 1 -> as_usize x = n.
Proof.
  intros H. unfold as_usize. replace (Int_part x) with (Z.of_nat n); [apply Nat2Z.id|]. symmetry. unfold Int_part.
  rewrite <- (tech_up x (Z.of_nat n + 1)); [lia|rewrite plus_IZR; lra|rewrite plus_IZR; lra].
Qed.

(** C26 (refuted for close bounds): for bounds closer than 2^-46 relative to their
    size, but farther than the accepted 10 eps, the depth computation underflows:
    integrate panics instead of returning the documented error. *)
Theorem C26_close_bounds_refuted f l q : (2 <= n_iteration_max q)%nat -> 10 * FEPS <= tolerance q -> n_gauss q = 10%nat ->
  let b := 1 in let a := 1 - / 2 ^ 47 in
  10 * FEPS <= Rabs (b - a) /\ snd (quad_integrate q a b f l) = Panic.
Proof.
  intros Hn Ht Hg b a. 
  assert (P : 0 < / 2 ^ 47) by (apply Rinv_0_lt_compat, pow_lt; lra).
  assert (P1 : / 2 ^ 47 <= 0.1) by lra.
  assert (B : Rabs (b - a) = / 2 ^ 47) by (unfold a, b; rewrite Rabs_pos_eq; lra).
  assert (B1 : 10 * FEPS <= / 2 ^ 47) by (unfold FEPS; lra).
  split; [lra|]. unfold quad_integrate. rewrite B. destruct (Rltb_spec (/ 2 ^ 47) (10 * FEPS)); [lra|].
  unfold mbind at 1, ret at 1. unfold quad_validate. destruct (Nat.ltb_spec (n_iteration_max q) 2); [lia|].
  destruct (Rltb_spec (tolerance q) (10 * FEPS)); [lra|]. rewrite Hg. cbn [existsb Nat.eqb orb]. cbv zeta.
  unfold mbind at 1, ret at 1. replace (quad_lmx a b) with (@Panic nat); [reflexivity|]. symmetry.
  unfold quad_lmx. destruct (Reqb_spec b 0) as [E|E]; [unfold b in E; lra|]. cbn [negb].
  destruct (Rltb_spec b 0) as [E1|E1]; [unfold b in E1; lra|].
  destruct (Rltb_spec 0 (1 * a)) as [E2|E2]; [|unfold a in E2; lra].
  replace (Rabs (1 - a / b)) with (/ 2 ^ 47) by (unfold a, b; rewrite Rdiv_1, Rabs_pos_eq; lra).
  destruct (Rleb_spec (/ 2 ^ 47) 0.1) as [E3|E3]; [|lra].
  assert (HL : ln (/ 2 ^ 47) = - (47 * ln 2)).
  { rewrite ln_Rinv by (apply pow_lt; lra). f_equal. rewrite ln_pow by lra. f_equal. cbn; lra. }
  rewrite HL. assert (0 < ln 2) by (rewrite <- ln_1; apply ln_increasing; lra).
  replace (0.5 - - (47 * ln 2) / ln 2) with (0.5 + 47).
  2: { replace (- - (47 * ln 2)) with (47 * ln 2) by lra. replace (- (47 * ln 2) / ln 2) with (- 47) by (field; lra). lra. }
  rewrite (as_usize_val _ 47) by (cbn; lra). reflexivity.
Qed.

Lemma pure_answers g : answers (pure g) g.
Proof. intros l x y E. unfold pure in E. congruence. Qed.

Lemma gauss_pure g ng tab c h lo hi l : gauss_table ng = Some tab -> c = (lo + hi) / 2 -> h = (hi - lo) / 2 ->
  exists l', gauss ng c h (pure g) l = (l', Ok (gauss_rule tab g lo hi)).
Proof.
  intros Ht Hc Hh. destruct (gauss ng c h (pure g) l) as [l' r] eqn:E.
  pose proof (gauss_ok _ g ng tab c h lo hi (pure_answers g) Ht Hc Hh _ _ _ E) as H. exists l'.
  destruct r as [v|e|]; [now rewrite H| |]; destruct H as (l1 & x & H); discriminate H.
Qed.

(** C26: if the rule on [a, b] and on its two halves agree within the tolerance,
    integrate answers after one iteration. *)
Theorem C26_first_pass g q a b l tab lmx : workspace_ok q -> gauss_table (n_gauss q) = Some tab ->
  10 * FEPS <= Rabs (b - a) -> quad_validate q = Ok tt -> quad_lmx a b = Ok lmx ->
  let est := gauss_rule tab g a b in let glr := halves (gauss_rule tab g) a b in
  Rabs (est - glr) <= tolerance q * Rabs glr ->
  exists l', quad_integrate q a b (pure g) l = (l', Ok (mkO glr (est - glr) (n_gauss q + n_gauss q + n_gauss q) 1)).
Proof.
  intros (W1 & W2 & W3 & W4 & W5) Ht Hab HV HL est glr Hc. unfold quad_integrate.
  destruct (Rltb_spec (Rabs (b - a)) (10 * FEPS)); [lra|].
  unfold mbind at 1, ret at 1. rewrite HV. cbv zeta. rewrite !map_const_repeat, W1, W2, W3, W4, W5.
  unfold mbind at 1, ret at 1. rewrite HL.
  unfold mbind at 1, ret at 1. rewrite vset_ok by (rewrite repeat_length; lia).
  unfold mbind at 1, ret at 1. rewrite vset_ok by (rewrite repeat_length; lia).
  unfold mbind at 1, ret at 1. rewrite vset_ok by (rewrite repeat_length; lia).
  unfold mbind at 1, ret at 1. rewrite vgetA, nA_upd_eq by (rewrite ?upd_length, repeat_length; lia).
  unfold mbind at 1, ret at 1. rewrite vgetA, nA_upd_eq by (rewrite ?upd_length, repeat_length; lia).
  unfold mbind at 1.
  destruct (gauss_pure g (n_gauss q) tab (a + 2 * ((b - a) / 4)) (2 * ((b - a) / 4)) a b l Ht ltac:(field) ltac:(field)) as (l1 & E1).
  rewrite E1. fold est. unfold mbind at 1.
  assert (Hn : (2 <= n_iteration_max q)%nat).
  { unfold quad_validate in HV. destruct (Nat.ltb_spec (n_iteration_max q) 2); [discriminate HV|lia]. }
  destruct (n_iteration_max q) as [|n]; [lia|]. cbn [quad_loop]. cbn [q_aa q_hh q_l q_gr q_lr].
  unfold mbind at 1, ret at 1. rewrite vgetA, nA_upd_eq by (rewrite ?upd_length, repeat_length; lia).
  unfold mbind at 1, ret at 1. rewrite vgetA, nA_upd_eq by (rewrite ?upd_length, repeat_length; lia).
  unfold mbind at 1.
  destruct (gauss_pure g (n_gauss q) tab (a + (b - a) / 4) ((b - a) / 4) a ((a + b) / 2) l1 Ht ltac:(field) ltac:(field)) as (l2 & E2).
  rewrite E2. unfold mbind at 1.
  destruct (gauss_pure g (n_gauss q) tab (a + 3 * ((b - a) / 4)) ((b - a) / 4) ((a + b) / 2) b l2 Ht ltac:(field) ltac:(field)) as (l3 & E3).
  rewrite E3. unfold mbind at 1, ret at 1. rewrite vset_ok by (rewrite repeat_length; lia). cbv zeta.
  cbn [q_aa q_hh q_l q_gr q_lr q_vl q_lmx q_eps q_ef q_est q_area q_ans q_err q_k q_mxl q_nf q_ni].
  change (gauss_rule tab g a ((a + b) / 2) + gauss_rule tab g ((a + b) / 2) b) with glr.
  unfold mbind at 1, ret at 1. unfold quad_next.
  cbn [q_aa q_hh q_l q_gr q_lr q_vl q_lmx q_eps q_ef q_est q_area q_ans q_err q_k q_mxl q_nf q_ni].
  set (area := Rabs est + _). set (tol := Rmax (Rabs (tolerance q)) (/ 2 ^ (N_BIT - 5)) / 2). fold tol.
  match goal with |- context [Rltb 0 ?X] => set (y := X) end.
  assert (Hy : y <= 0).
  { unfold y. pose proof (Rmax_r (tol * area) (tol * Rabs glr)). 
    assert (Rabs (est - glr) * 0.5 <= tol * Rabs glr); [|lra].
    unfold tol. pose proof (Rmax_l (Rabs (tolerance q)) (/ 2 ^ (N_BIT - 5))). pose proof (Rle_abs (tolerance q)). pose proof (Rabs_pos glr).
    set (T := Rmax (Rabs (tolerance q)) (/ 2 ^ (N_BIT - 5))) in *.
    assert (tolerance q * Rabs glr <= T * Rabs glr) by (apply Rmult_le_compat_r; lra). lra. }
  destruct (Rltb_spec 0 y) as [C|C]; [lra|]. cbn [andb orb]. 
  rewrite vgetL, nL_upd_eq by (rewrite ?upd_length, repeat_length; lia). cbn [bind Z.ltb Z.compare go_up].
  cbn [q_mxl andb q_ans q_err q_nf q_ni]. exists l3. unfold ret. rewrite Rplus_0_l. reflexivity.
Qed.

(** C26: a run on 3 + 5 t^2 over [-1, 1]: it is Ok and close to 28/3. *)
Example C26_run l : exists l' o, quad_integrate quadrature_new (-1) 1 (pure (peval [3; 0; 5])) l = (l', Ok o) /\
  Rabs (o_value o - RInt (peval [3; 0; 5]) (-1) 1) <= 1e-15.
Proof.
  assert (Hw : workspace_ok quadrature_new) by (unfold workspace_ok, quadrature_new; cbn [w_aa w_hh w_vl w_gr w_lr]; rewrite !repeat_length; auto).
  set (tab := combine G10_A G10_W). set (p := [3; 0; 5]).
  assert (Ht : gauss_table 10 = Some tab) by reflexivity.
  assert (Hv : RInt (peval p) (-1) 1 = 28 / 3).
  { rewrite (is_RInt_unique (V := R_CompleteNormedModule) _ _ _ _ (RInt_poly p (-1) 1)). unfold p. cbn. unfold exact_moment. cbn. field. }
  assert (A0 : Rabs (-1) = 1) by (rewrite Rabs_left; lra). assert (A1 : Rabs 1 = 1) by (rewrite Rabs_right; lra). assert (A2 : Rabs 0 = 0) by apply Rabs_R0.
  assert (Hb : pbound p 1 = 8) by (unfold p; cbn [pbound]; rewrite !Rabs_pos_eq by lra; lra).
  assert (R1 : forall c d, Rabs c <= 1 -> Rabs d <= 1 -> Rabs (gauss_rule tab (peval p) c d - RInt (peval p) c d) <= Rabs (d - c) / 2 * (1e-16 * 8)).
  { intros c d Hc Hd. rewrite <- Hb. apply (C26_rule_polynomial 10 tab p c d 1 Ht); auto. cbn; lia. }
  pose proof (R1 (-1) 1 ltac:(lra) ltac:(lra)) as B1. pose proof (R1 (-1) 0 ltac:(lra) ltac:(lra)) as B2. pose proof (R1 0 1 ltac:(lra) ltac:(lra)) as B3.
  assert (X : forall c d, ex_RInt (peval p) c d) by (intros; apply (ex_RInt_continuous (V := R_CompleteNormedModule)); intros; apply peval_cont).
  pose proof (RInt_Chasles (V := R_CompleteNormedModule) (peval p) (-1) 0 1 (X _ _) (X _ _)) as C.
  change (RInt (peval p) (-1) 0 + RInt (peval p) 0 1 = RInt (peval p) (-1) 1) in C.
  rewrite (Rabs_pos_eq (1 - -1)) in B1 by lra. rewrite (Rabs_pos_eq (0 - -1)) in B2 by lra. rewrite (Rabs_pos_eq (1 - 0)) in B3 by lra.
  assert (Eh : halves (gauss_rule tab (peval p)) (-1) 1 = gauss_rule tab (peval p) (-1) 0 + gauss_rule tab (peval p) 0 1).
  { unfold halves. replace ((-1 + 1) / 2) with 0 by field. reflexivity. }
  apply Rabs_le_between' in B1, B2, B3.
  destruct (C26_first_pass (peval p) quadrature_new (-1) 1 l tab N_LMX Hw Ht) as (l' & E).
  - rewrite Rabs_pos_eq by lra. unfold FEPS. lra.
  - unfold quad_validate, quadrature_new. cbn [n_iteration_max tolerance n_gauss existsb Nat.eqb orb].
    destruct (Rltb_spec 1e-10 (10 * FEPS)) as [K|K]; [unfold FEPS in K; lra|]. reflexivity.
  - unfold quad_lmx. destruct (Reqb_spec 1 0); [lra|]. cbn [negb]. destruct (Rltb_spec 1 0); [lra|]. destruct (Rltb_spec 0 (1 * -1)); [lra|]. reflexivity.
  - rewrite Eh. unfold quadrature_new. cbn [tolerance]. rewrite (Rabs_pos_eq (gauss_rule tab (peval p) (-1) 0 + gauss_rule tab (peval p) 0 1)) by lra.
    apply Rabs_le. lra.
  - eexists l', _. split; [exact E|]. cbn [o_value]. rewrite Eh. apply Rabs_le. lra.
Qed.

Print Assumptions C26_tiling.
Print Assumptions C26_polynomial.
Print Assumptions C26_close_bounds_refuted.
Print Assumptions C26_run.
