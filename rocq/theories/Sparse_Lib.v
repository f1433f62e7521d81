(** Generic lemmas for the compressed formats: segments of arrays, nested loops as
    loops over a flattened list, simulation of loops, prefix sums, bucket scatter. *)
From Verif Require Import Base Sparse_Spec.

(** ** Segments *)

Lemma seg_length {A} (l : list A) p q : p <= q -> q <= length l -> length (seg l p q) = q - p.
Proof. intros H1 H2. unfold seg. rewrite firstn_length, skipn_length. lia. Qed.

Lemma seg_nil {A} (l : list A) p q : q <= p -> seg l p q = [].
Proof. intros H. unfold seg. replace (q - p) with 0 by lia. reflexivity. Qed.

Lemma skipn_nth_cons {A} (l : list A) p d : p < length l -> skipn p l = nth p l d :: skipn (S p) l.
Proof.
  revert p; induction l as [|a l IH]; intros [|p] H; simpl in *; try lia; auto.
  apply IH. lia.
Qed.

Lemma seg_cons {A} (l : list A) p q d :
  p < q -> p < length l -> seg l p q = nth p l d :: seg l (S p) q.
Proof.
  intros H1 H2. unfold seg. rewrite (skipn_nth_cons l p d H2).
  replace (q - p) with (S (q - S p)) by lia. reflexivity.
Qed.

Lemma nth_firstn_lt {A} (l : list A) n k d : k < n -> nth k (firstn n l) d = nth k l d.
Proof.
  revert n k; induction l as [|a l IH]; intros [|n] [|k] H; simpl; auto; try lia.
  apply IH. lia.
Qed.

Lemma nth_skipn_add {A} (l : list A) n k d : nth k (skipn n l) d = nth (n + k) l d.
Proof.
  revert n; induction l as [|a l IH]; intros [|n]; simpl; auto.
  destruct k; reflexivity.
Qed.

Lemma nth_seg {A} (l : list A) p q k d : k < q - p -> nth k (seg l p q) d = nth (p + k) l d.
Proof. intros H. unfold seg. rewrite nth_firstn_lt by assumption. apply nth_skipn_add. Qed.

Lemma seg_ext {A} (l l' : list A) p q :
  q <= length l -> q <= length l' ->
  (forall k d, p <= k < q -> nth k l d = nth k l' d) -> seg l p q = seg l' p q.
Proof.
  intros H1 H2 E. destruct (Nat.le_gt_cases p q) as [Hpq|Hpq].
  2:{ rewrite !seg_nil by lia. reflexivity. }
  destruct (seg l p q) as [|a tl] eqn:E0.
  - assert (H : length (seg l p q) = 0) by now rewrite E0.
    rewrite seg_length in H by assumption. now rewrite seg_nil by lia.
  - rewrite <- E0. apply nth_ext_d with (d := a).
    + now rewrite !seg_length by assumption.
    + intros i Hi. rewrite seg_length in Hi by assumption.
      rewrite !nth_seg by lia. apply E. lia.
Qed.

Lemma seg_upd_outside {A} (l : list A) p q k x :
  k < p \/ q <= k -> seg (upd l k x) p q = seg l p q.
Proof.
  intros H. unfold seg.
  destruct H as [H|H].
  - f_equal. revert p k H; induction l as [|a l IH]; intros [|p] [|k] H; simpl; auto; try lia.
    apply IH. lia.
  - revert p q k H; induction l as [|a l IH]; intros p q k H; simpl; auto.
    destruct k as [|k].
    + assert (q = 0) by lia. subst q. destruct p; simpl; auto.
    + destruct p as [|p]; simpl.
      * destruct q as [|q]; simpl; auto. f_equal.
        specialize (IH 0 q k ltac:(lia)). rewrite !Nat.sub_0_r in IH. exact IH.
      * destruct q as [|q]; simpl; auto.
        apply IH. lia.
Qed.

Lemma seg_snoc {A} (l : list A) p q d :
  p <= q -> q < length l -> seg l p (S q) = seg l p q ++ [nth q l d].
Proof.
  intros H1 H2. unfold seg. replace (S q - p) with (S (q - p)) by lia.
  rewrite (firstn_snoc (skipn p l) (q - p) d) by (rewrite skipn_length; lia).
  f_equal. f_equal. rewrite nth_skipn_add. f_equal. lia.
Qed.

Lemma seg_upd_snoc {A} (l : list A) p q x :
  p <= q -> q < length l -> seg (upd l q x) p (S q) = seg l p q ++ [x].
Proof.
  intros H1 H2. rewrite (seg_snoc _ _ _ x) by (rewrite ?upd_length; lia).
  rewrite nth_upd_eq by assumption. now rewrite seg_upd_outside by lia.
Qed.

Lemma seg_upd_inside {A} (l : list A) p q k x :
  p <= k < q -> q <= length l -> seg (upd l k x) p q = upd (seg l p q) (k - p) x.
Proof.
  intros H1 H2. apply nth_ext_d with (d := x).
  - rewrite upd_length, !seg_length by (rewrite ?upd_length; lia). reflexivity.
  - intros i Hi. rewrite seg_length in Hi by (rewrite ?upd_length; lia).
    rewrite nth_seg by lia.
    rewrite !nth_upd by (rewrite ?seg_length; lia).
    rewrite nth_seg by lia.
    destruct (Nat.eqb_spec (p + i) k), (Nat.eqb_spec i (k - p)); auto; lia.
Qed.

Lemma seg_app {A} (l : list A) p q r :
  p <= q -> q <= r -> r <= length l -> seg l p r = seg l p q ++ seg l q r.
Proof.
  intros H1 H2 H3. unfold seg.
  assert (E : skipn p l = firstn (q - p) (skipn p l) ++ skipn q l).
  { rewrite <- (firstn_skipn (q - p) (skipn p l)) at 1. f_equal.
    clear -H1. revert p q H1; induction l as [|a l IH]; intros [|p] [|q] H; simpl; auto; try lia.
    - now rewrite skipn_nil.
    - apply IH. lia. }
  rewrite E at 1. rewrite firstn_app, firstn_firstn.
  rewrite firstn_length, skipn_length.
  replace (Nat.min (r - p) (q - p)) with (q - p) by lia.
  replace (r - p - Nat.min (q - p) (length l - p)) with (r - q) by lia.
  reflexivity.
Qed.

Lemma seg_full {A} (l : list A) n : n = length l -> seg l 0 n = l.
Proof. intros ->. unfold seg. rewrite Nat.sub_0_r. apply firstn_all. Qed.

Lemma combine_skipn {A B} (l1 : list A) (l2 : list B) n :
  skipn n (combine l1 l2) = combine (skipn n l1) (skipn n l2).
Proof.
  revert l1 l2; induction n as [|n IH]; intros [|a l1] [|b l2]; simpl; auto.
  - destruct (skipn n l1); reflexivity.
Qed.

Lemma combine_firstn' {A B} (l1 : list A) (l2 : list B) n :
  firstn n (combine l1 l2) = combine (firstn n l1) (firstn n l2).
Proof.
  revert l1 l2; induction n as [|n IH]; intros [|a l1] [|b l2]; simpl; auto.
  f_equal. apply IH.
Qed.

Lemma seg_combine {A B} (l1 : list A) (l2 : list B) p q :
  seg (combine l1 l2) p q = combine (seg l1 p q) (seg l2 p q).
Proof. unfold seg. now rewrite combine_skipn, combine_firstn'. Qed.

Lemma combine_map_pair {A B C} (f : A -> B) (g : A -> C) l :
  combine (map f l) (map g l) = map (fun a => (f a, g a)) l.
Proof. induction l; simpl; congruence. Qed.

Lemma map_fst_combine {A B} (l1 : list A) (l2 : list B) :
  length l1 <= length l2 -> map fst (combine l1 l2) = l1.
Proof.
  revert l2; induction l1 as [|a l1 IH]; intros [|b l2] H; simpl in *; auto; try lia.
  f_equal. apply IH. lia.
Qed.

Lemma map_snd_combine {A B} (l1 : list A) (l2 : list B) :
  length l2 <= length l1 -> map snd (combine l1 l2) = l2.
Proof.
  revert l2; induction l1 as [|a l1 IH]; intros [|b l2] H; simpl in *; auto; try lia.
  f_equal. apply IH. lia.
Qed.

Lemma combine_upd {A B} (l1 : list A) (l2 : list B) k x y :
  upd (combine l1 l2) k (x, y) = combine (upd l1 k x) (upd l2 k y).
Proof.
  revert l2 k; induction l1 as [|a l1 IH]; intros [|b l2] [|k]; simpl; auto.
  f_equal. apply IH.
Qed.

Lemma flat_map_ext_in {A B} (f g : A -> list B) l :
  (forall a, In a l -> f a = g a) -> flat_map f l = flat_map g l.
Proof.
  induction l as [|a l IH]; intros H; cbn [flat_map]; auto.
  rewrite H by (now left). rewrite IH; auto. intros; apply H; now right.
Qed.

(** ** Loops *)

Lemma for_range_seg {A S} (l : list A) (body : A -> S -> res S) (f : nat -> S -> res S) p q s :
  q <= length l ->
  (forall k t, p <= k < q -> f k t = (a <- vget l k ;; body a t)) ->
  for_range p q f s = for_each (seg l p q) body s.
Proof.
  intros Hq Hf. unfold for_range, seg.
  destruct (Nat.le_gt_cases p q) as [H|H].
  - apply for_n_vget; [lia|]. intros k t Hk. apply Hf. lia.
  - replace (q - p) with 0 by lia. reflexivity.
Qed.

Lemma for_n_flat {A S} (g : nat -> list A) (body : A -> S -> res S) (f : nat -> S -> res S) n lo s :
  (forall i t, lo <= i < lo + n -> f i t = for_each (g i) body t) ->
  for_n n lo f s = for_each (flat_map g (seq lo n)) body s.
Proof.
  revert lo s; induction n as [|n IH]; intros lo s Hf; cbn [for_n seq flat_map for_each]; auto.
  rewrite for_each_app, Hf by lia.
  destruct (for_each (g lo) body s); cbn [bind]; auto.
  apply IH. intros i t Hi. apply Hf. lia.
Qed.

Lemma for_range_flat {A S} (g : nat -> list A) (body : A -> S -> res S) (f : nat -> S -> res S) n s :
  (forall i t, i < n -> f i t = for_each (g i) body t) ->
  for_range 0 n f s = for_each (flat_map g (seq 0 n)) body s.
Proof.
  intros Hf. unfold for_range. rewrite Nat.sub_0_r. apply for_n_flat.
  intros i t Hi. apply Hf. lia.
Qed.

Lemma for_n_ext {S} (f g : nat -> S -> res S) n lo s :
  (forall i t, lo <= i < lo + n -> f i t = g i t) -> for_n n lo f s = for_n n lo g s.
Proof.
  revert lo s; induction n as [|n IH]; intros lo s H; cbn [for_n]; auto.
  rewrite H by lia. destruct (g lo s); cbn [bind]; auto. apply IH. intros; apply H; lia.
Qed.

Lemma for_range_ext {S} (f g : nat -> S -> res S) lo hi s :
  (forall i t, lo <= i < hi -> f i t = g i t) -> for_range lo hi f s = for_range lo hi g s.
Proof. intros H. apply for_n_ext. intros; apply H; lia. Qed.

Lemma for_each_ext {A S} (f g : A -> S -> res S) l s :
  (forall a t, In a l -> f a t = g a t) -> for_each l f s = for_each l g s.
Proof.
  revert s; induction l as [|a l IH]; intros s H; cbn [for_each]; auto.
  rewrite H by (now left). destruct (g a s); cbn [bind]; auto. apply IH. intros; apply H; now right.
Qed.

Lemma for_each_map {A B S} (h : B -> A) (f : A -> S -> res S) l s :
  for_each (map h l) f s = for_each l (fun b => f (h b)) s.
Proof.
  revert s; induction l as [|a l IH]; intros s; cbn [for_each map]; auto.
  destruct (f (h a) s); cbn [bind]; auto.
Qed.

(** two outcomes related: same kind, related values *)
Definition rel_res {A B} (R : A -> B -> Prop) (x : res A) (y : res B) : Prop :=
  match x, y with
  | Ok a, Ok b => R a b
  | Err e, Err e' => e = e'
  | Panic, Panic => True
  | _, _ => False
  end.

Lemma rel_bind {A B A' B'} (R : A -> B -> Prop) (R' : A' -> B' -> Prop) x y f g :
  rel_res R x y -> (forall a b, R a b -> rel_res R' (f a) (g b)) ->
  rel_res R' (bind x f) (bind y g).
Proof. destruct x, y; simpl; intros; try contradiction; auto. Qed.

Lemma for_n_sim {S S'} (R : S -> S' -> Prop) f g n lo s t :
  R s t -> (forall i a b, R a b -> rel_res R (f i a) (g i b)) ->
  rel_res R (for_n n lo f s) (for_n n lo g t).
Proof.
  revert lo s t; induction n as [|n IH]; intros lo s t H Hf; cbn [for_n].
  - exact H.
  - apply rel_bind with (R := R); auto.
Qed.

Lemma for_range_sim {S S'} (R : S -> S' -> Prop) f g lo hi s t :
  R s t -> (forall i a b, R a b -> rel_res R (f i a) (g i b)) ->
  rel_res R (for_range lo hi f s) (for_range lo hi g t).
Proof. apply for_n_sim. Qed.

(** ** Prefix sums *)

Fixpoint psum (c : nat -> nat) (n : nat) : nat :=
  match n with
  | 0 => 0
  | S n' => psum c n' + c n'
  end.

Lemma psum_mono c m n : m <= n -> psum c m <= psum c n.
Proof. induction 1; simpl; lia. Qed.

Lemma psum_ext c c' n : (forall b, b < n -> c b = c' b) -> psum c n = psum c' n.
Proof. induction n as [|n IH]; intros H; simpl; auto. rewrite IH, H by auto. reflexivity. Qed.

Lemma psum_add c c' n : psum (fun b => c b + c' b) n = psum c n + psum c' n.
Proof. induction n; simpl; lia. Qed.

Lemma psum_zero c n : (forall b, b < n -> c b = 0) -> psum c n = 0.
Proof. induction n as [|n IH]; intros H; simpl; auto. rewrite IH, H by auto. reflexivity. Qed.

Lemma psum_single n k : psum (fun b => if k =? b then 1 else 0) n = if k <? n then 1 else 0.
Proof.
  induction n as [|n IH]; simpl; auto. rewrite IH.
  destruct (Nat.ltb_spec k n), (Nat.eqb_spec k n), (Nat.ltb_spec k (S n)); lia.
Qed.

(** ** Buckets *)

Section Bucket.
Context {A : Type}.
Variable key : A -> nat.

Definition bucket (b : nat) (l : list A) : list A := filter (fun a => key a =? b) l.
Definition cnt (b : nat) (l : list A) : nat := length (bucket b l).

Lemma bucket_snoc b l a : bucket b (l ++ [a]) = bucket b l ++ (if key a =? b then [a] else []).
Proof. unfold bucket. rewrite filter_app. cbn [filter]. destruct (key a =? b); reflexivity. Qed.

Lemma bucket_app b l l' : bucket b (l ++ l') = bucket b l ++ bucket b l'.
Proof. unfold bucket. apply filter_app. Qed.

Lemma cnt_snoc b l a : cnt b (l ++ [a]) = cnt b l + (if key a =? b then 1 else 0).
Proof. unfold cnt. rewrite bucket_snoc, app_length. destruct (key a =? b); reflexivity. Qed.

Lemma cnt_app b l l' : cnt b (l ++ l') = cnt b l + cnt b l'.
Proof. unfold cnt. now rewrite bucket_app, app_length. Qed.

Lemma cnt_cons b a l : cnt b (a :: l) = (if key a =? b then 1 else 0) + cnt b l.
Proof. unfold cnt, bucket. cbn [filter]. destruct (key a =? b); reflexivity. Qed.

Lemma psum_cnt n l : Forall (fun a => key a < n) l -> psum (fun b => cnt b l) n = length l.
Proof.
  induction l as [|a l IH]; intros H.
  - apply psum_zero. reflexivity.
  - inversion H; subst. rewrite (psum_ext _ (fun b => (if key a =? b then 1 else 0) + cnt b l))
      by (intros; apply cnt_cons).
    rewrite psum_add, IH, psum_single by assumption.
    destruct (Nat.ltb_spec (key a) n); simpl; lia.
Qed.

Definition start (items : list A) (b : nat) : nat := psum (fun b => cnt b items) b.

Lemma start_S items b : start items (S b) = start items b + cnt b items.
Proof. reflexivity. Qed.

Lemma start_mono items b b' : b <= b' -> start items b <= start items b'.
Proof. apply psum_mono. Qed.

(** array [arr] holds, at the beginning of each bucket, the images of the items seen *)
Definition filled {B} (f : A -> B) (items pre : list A) (n : nat) (arr : list B) : Prop :=
  forall b, b < n -> seg arr (start items b) (start items b + cnt b pre) = map f (bucket b pre).

Lemma cnt_prefix_lt items pre a post : items = pre ++ a :: post -> cnt (key a) pre < cnt (key a) items.
Proof. intros ->. rewrite cnt_app, cnt_cons, Nat.eqb_refl. lia. Qed.

Lemma cnt_prefix_le items pre post b : items = pre ++ post -> cnt b pre <= cnt b items.
Proof. intros ->. rewrite cnt_app. lia. Qed.

Lemma filled_nil {B} (f : A -> B) items n arr : filled f items [] n arr.
Proof. intros b Hb. rewrite Nat.add_0_r. now rewrite seg_nil. Qed.

Lemma filled_step {B} (f : A -> B) items n arr pre a post :
  items = pre ++ a :: post -> key a < n -> start items n <= length arr ->
  filled f items pre n arr ->
  start items (key a) + cnt (key a) pre < length arr /\
  filled f items (pre ++ [a]) n (upd arr (start items (key a) + cnt (key a) pre) (f a)).
Proof.
  intros E Hk Hlen HF.
  assert (Hc := cnt_prefix_lt items pre a post E).
  assert (Hs : start items (S (key a)) <= start items n) by (apply start_mono; lia).
  rewrite start_S in Hs. split; [lia|].
  intros b Hb. rewrite cnt_snoc, bucket_snoc.
  destruct (Nat.eqb_spec (key a) b) as [<-|Hne].
  - rewrite Nat.add_1_r, Nat.add_succ_r, seg_upd_snoc by lia.
    rewrite HF by assumption. rewrite map_app. reflexivity.
  - rewrite Nat.add_0_r, app_nil_r. rewrite seg_upd_outside.
    + now apply HF.
    + assert (Hcb := cnt_prefix_le items pre (a :: post) b E).
      destruct (Nat.lt_trichotomy b (key a)) as [H|[H|H]]; [|lia|].
      * right. assert (start items (S b) <= start items (key a)) by (apply start_mono; lia).
        rewrite start_S in H0. lia.
      * left. assert (start items (S (key a)) <= start items b) by (apply start_mono; lia).
        rewrite start_S in H0. lia.
Qed.

Lemma filled_all {B} (f : A -> B) items n arr :
  filled f items items n arr ->
  forall b, b < n -> seg arr (start items b) (start items (S b)) = map f (bucket b items).
Proof. intros HF b Hb. rewrite start_S. now apply HF. Qed.

End Bucket.
