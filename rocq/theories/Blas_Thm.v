(** C97: products of matrices and vectors computed through BLAS. *)
From Verif Require Import Base Dense_Model Dense_Proofs Dense_Thm LinSol_Model Blas_Model.
From Coq Require Import Reals Ring Lra.
From Coquelicot Require Import Complex.
Local Open Scope nat_scope.

(* ------------------------------------------------------------------ *)
(** * Specification *)

(** representable as an i32 *)
Definition small (n : nat) : Prop := (Z.of_nat n <= 2147483647)%Z.
(** the vector [v] has the entries f(0), ..., f(n-1) *)
Definition is_vector {T} (v : list T) (n : nat) (f : nat -> T) : Prop := length v = n /\ forall i, i < n -> nth_error v i = Some (f i).
(** the triangle of c that is worked on, with the diagonal *)
Definition in_triangle (upper : bool) (i j : nat) : Prop := if upper then i <= j else j <= i.

Section Spec.
Context {T : Type} (zero : T) (add : T -> T -> T).
Fixpoint total (n : nat) (f : nat -> T) : T := match n with 0 => zero | S n => add (total n f) (f n) end.
End Spec.

(* ------------------------------------------------------------------ *)
(** * Loops that update cells *)
Lemma upd1 {A} (z : A) lo hi (pos : nat -> nat) (g : nat -> A -> A) (body : nat -> list A -> res (list A)) (d0 : list A) :
  lo <= hi -> (forall j, lo <= j < hi -> pos j < length d0) ->
  (forall j j', lo <= j < hi -> lo <= j' < hi -> pos j = pos j' -> j = j') ->
  (forall j d, lo <= j < hi -> length d = length d0 -> body j d = vset d (pos j) (g j (nth (pos j) d z))) ->
  exists d, for_range lo hi body d0 = Ok d /\ length d = length d0 /\
    (forall j, lo <= j < hi -> nth (pos j) d z = g j (nth (pos j) d0 z)) /\
    (forall p, (forall j, lo <= j < hi -> pos j <> p) -> nth p d z = nth p d0 z).
Proof.
  intros Hle Hpos Hinj Hbody.
  destruct (for_range_inv (fun k d => length d = length d0 /\
    (forall j, lo <= j < k -> nth (pos j) d z = g j (nth (pos j) d0 z)) /\
    (forall p, (forall j, lo <= j < k -> pos j <> p) -> nth p d z = nth p d0 z)) body lo hi d0) as (d & E & H1 & H2 & H3); auto.
  - split; [reflexivity|]. split; [intros; lia|]. auto.
  - intros j d Hj (HL & HV & HF). rewrite Hbody by auto. rewrite vset_ok by (rewrite HL; auto).
    eexists. split; [reflexivity|]. rewrite upd_length. split; [auto|].
    assert (E : nth (pos j) d z = nth (pos j) d0 z) by (apply HF; intros j' Hj' Q; apply Hinj in Q; lia).
    split.
    + intros j' Hj'. rewrite nth_upd by (rewrite HL; auto).
      destruct (Nat.eqb_spec (pos j') (pos j)) as [Q|Q]; [apply Hinj in Q; try lia; subst; now rewrite E|].
      apply HV. destruct (Nat.eq_dec j' j); [subst; congruence|lia].
    + intros p Hp. rewrite nth_upd by (rewrite HL; auto).
      destruct (Nat.eqb_spec p (pos j)) as [Q|Q]; [exfalso; apply (Hp j); [lia|auto]|].
      apply HF. intros j' Hj'. apply Hp. lia.
  - exists d. auto.
Qed.

Lemma upd2 {A} (z : A) m (lo hi : nat -> nat) (pos : nat -> nat -> nat) (g : nat -> nat -> A -> A) (body : nat -> nat -> list A -> res (list A)) (d0 : list A) :
  (forall i, i < m -> lo i <= hi i) -> (forall i j, i < m -> lo i <= j < hi i -> pos i j < length d0) ->
  (forall i j i' j', i < m -> lo i <= j < hi i -> i' < m -> lo i' <= j' < hi i' -> pos i j = pos i' j' -> i = i' /\ j = j') ->
  (forall i j d, i < m -> lo i <= j < hi i -> length d = length d0 -> body i j d = vset d (pos i j) (g i j (nth (pos i j) d z))) ->
  exists d, for_range 0 m (fun i d => for_range (lo i) (hi i) (body i) d) d0 = Ok d /\ length d = length d0 /\
    (forall i j, i < m -> lo i <= j < hi i -> nth (pos i j) d z = g i j (nth (pos i j) d0 z)) /\
    (forall p, (forall i j, i < m -> lo i <= j < hi i -> pos i j <> p) -> nth p d z = nth p d0 z).
Proof.
  intros Hle Hpos Hinj Hbody.
  destruct (for_range_inv (fun k d => length d = length d0 /\
    (forall i j, i < k -> lo i <= j < hi i -> nth (pos i j) d z = g i j (nth (pos i j) d0 z)) /\
    (forall p, (forall i j, i < k -> lo i <= j < hi i -> pos i j <> p) -> nth p d z = nth p d0 z))
    (fun i d => for_range (lo i) (hi i) (body i) d) 0 m d0) as (d & E & H1 & H2 & H3).
  - lia.
  - split; [reflexivity|]. split; [intros; lia|]. auto.
  - intros i d [_ Hi] (HL & HV & HF).
    destruct (upd1 z (lo i) (hi i) (pos i) (g i) (body i) d) as (d' & E & K1 & K2 & K3).
    + auto.
    + intros. rewrite HL. auto.
    + intros j j' Hj Hj' Q. apply (Hinj i j i j'); auto.
    + intros. apply Hbody; auto. lia.
    + exists d'. split; [exact E|]. split; [lia|]. split.
      * intros i' j' Hi' Hj'. destruct (Nat.eq_dec i' i) as [->|N].
        -- rewrite K2 by auto. f_equal. apply HF. intros i2 j2 Hi2 Hj2 Q. apply Hinj in Q; lia.
        -- rewrite K3; [apply HV; auto; lia|]. intros j Hj Q. apply Hinj in Q; try lia; auto.
      * intros p Hp. rewrite K3; [apply HF; intros; apply Hp; auto|]. intros; apply Hp; auto.
  - exists d. splits; auto.
Qed.

Section Thm.
Variable T : Type.
Variables zero one : T.
Variables add mul sub : T -> T -> T.
Variable opp : T -> T.
Hypothesis RT : ring_theory zero one add mul sub opp eq.
Variables conj re : T -> T.
Hypothesis conj_conj : forall x, conj (conj x) = x.
Add Ring Tring : RT.

Infix "+'" := add (at level 50, left associativity).
Infix "*'" := mul (at level 40, left associativity).
Notation total := (total zero add).


(** the same for vectors, with a default *)
Lemma vec_nth (v : list T) n f i : is_vector v n f -> i < n -> nth i v zero = f i.
Proof using zero. intros [L H] Hi. apply nth_error_nth, H, Hi. Qed.
Lemma vec_intro (v : list T) n f : length v = n -> (forall i, i < n -> nth i v zero = f i) -> is_vector v n f.
Proof using zero. intros L H. split; auto. intros i Hi. rewrite (nth_error_nth' v zero) by lia. now rewrite H. Qed.
Lemma vec_get (v : list T) n f i : is_vector v n f -> i < n -> vget v i = Ok (f i).
Proof using zero. intros [L H] Hi. unfold vget. now rewrite H. Qed.
Lemma mat_get (a : dmat T) m n f i j : is_matrix a m n f -> i < m -> j < n -> vget (d_data a) (i + j * m) = Ok (f i j).
Proof using zero. intros (R & C & L & H) Hi Hj. specialize (H i j Hi Hj). unfold d_get in H. now rewrite R in H. Qed.
Lemma mat_nth (a : dmat T) m n f i j : is_matrix a m n f -> i < m -> j < n -> nth (i + j * m) (d_data a) zero = f i j.
Proof using zero. intros H Hi Hj. pose proof (mat_get _ _ _ _ _ _ H Hi Hj) as E. apply (vget_ok_inv _ _ _ zero) in E. apply E. Qed.
Lemma mat_ext (a : dmat T) m n f g : is_matrix a m n f -> (forall i j, i < m -> j < n -> f i j = g i j) -> is_matrix a m n g.
Proof using zero. intros (R & C & L & H) E. unfold is_matrix. splits; auto. intros i j Hi Hj. rewrite H by auto. now rewrite E. Qed.
Lemma small_i32 n : small n -> to_i32 n = Ok n.
Proof using zero. intros H. unfold to_i32, fits_i32. unfold small in H. apply Z.leb_le in H. now rewrite H. Qed.
Lemma dot_total k f g : (forall l, l < k -> f l = Ok (g l)) -> dot T zero add k f = Ok (total k g).
Proof using zero.
  intros H. unfold dot. destruct (for_range_inv (fun i s => s = total i g) (fun l s => x <- f l ;; Ok (add s x)) 0 k zero) as (s & E & ->); auto; try lia.
  intros i s Hi ->. rewrite H by lia. eexists. split; reflexivity.
Qed.
Lemma fill_data (c : dmat T) z : d_data (d_fill T c z) = map (fun _ => z) (d_data c).
Proof using zero. reflexivity. Qed.
Lemma filled_matrix (c : dmat T) m n f z : is_matrix c m n f -> is_matrix (d_fill T c z) m n (fun _ _ => z).
Proof using zero.
  intros (R & C & L & H). apply is_matrix_dval with (zero := z); auto; [rewrite fill_data, map_length; auto|].
  intros i j Hi Hj. rewrite fill_data. apply (map_nth (fun _ : T => z) (d_data c) z).
Qed.

(** gemm on well-formed matrices *)
Lemma gemm_ok ta m n k alpha a b beta c fa fb fc : is_matrix c m n fc -> is_matrix b k n fb -> m <> 0 -> k <> 0 -> n <> 0 ->
  (forall i l, i < m -> l < k -> opget T conj ta (d_data a) (match ta with NoTrans => m | _ => k end) i l = Ok (fa i l)) ->
  exists d, gemm T zero add mul conj ta NoTrans m n k alpha (d_data a) (match ta with NoTrans => m | _ => k end) (d_data b) k beta (d_data c) m = Ok d /\
    is_matrix (with_data T c d) m n (fun i j => alpha *' total k (fun l => fa i l *' fb l j) +' beta *' fc i j).
Proof using zero.
  intros HC HB Hm Hk Hn HA. unfold gemm, assert_.
  rewrite (proj2 (Nat.leb_le (Nat.max 1 (match ta with NoTrans => m | _ => k end)) (match ta with NoTrans => m | _ => k end))) by (destruct ta; lia).
  rewrite (proj2 (Nat.leb_le (Nat.max 1 k) k)), (proj2 (Nat.leb_le (Nat.max 1 m) m)) by lia. simpl.
  destruct (upd2 zero n (fun _ => 0) (fun _ => m) (fun j i => i + j * m) (fun j i z => alpha *' total k (fun l => fa i l *' fb l j) +' beta *' z)
    (fun j i c => s <- dot T zero add k (fun l => x <- opget T conj ta (d_data a) (match ta with NoTrans => m | _ => k end) i l ;; y <- opget T conj NoTrans (d_data b) k l j ;; Ok (mul x y)) ;;
      z <- vget c (i + j * m) ;; vset c (i + j * m) (add (mul alpha s) (mul beta z))) (d_data c)) as (d & E & L & V & _).
  - lia.
  - intros j i Hj Hi. destruct HC as (_ & _ & LC & _). rewrite LC. apply idx_lt; lia.
  - intros j i j' i' Hj Hi Hj' Hi' Q. apply idx_inj in Q; lia.
  - intros j i d Hj Hi L. rewrite dot_total with (g := fun l => fa i l *' fb l j).
    + simpl. rewrite (vget_ok _ _ zero); [reflexivity|]. destruct HC as (_ & _ & LC & _). rewrite L, LC. apply idx_lt; lia.
    + intros l Hl. rewrite HA by lia. simpl. now rewrite (mat_get _ _ _ _ _ _ HB) by lia.
  - exists d. split; [exact E|]. destruct HC as (R & C & LC & HC'). apply is_matrix_dval with (zero := zero); auto; [simpl; lia|].
    intros i j Hi Hj. simpl. rewrite V by lia. rewrite (mat_nth c m n fc) by (auto; split; auto). reflexivity.
Qed.

(** c := alpha a b + beta c, for all sizes; the inner dimension may be zero only if beta is zero *)
Theorem C97_mat_mat_mul c alpha a b beta m n k fa fb fc : is_matrix c m n fc -> is_matrix a m k fa -> is_matrix b k n fb ->
  small m -> small n -> small k -> k <> 0 \/ beta = zero ->
  exists c', mat_mat_mul T zero add mul conj c alpha a b beta = Ok c' /\
    is_matrix c' m n (fun i j => alpha *' total k (fun l => fa i l *' fb l j) +' beta *' fc i j).
Proof using RT.
  intros HC HA HB Sm Sn Sk K. unfold mat_mat_mul. assert (HC' := HC). assert (HA' := HA). assert (HB' := HB).
  destruct HC' as (-> & -> & LC & _), HA' as (-> & -> & LA & _), HB' as (-> & -> & LB & _). rewrite !Nat.eqb_refl. simpl.
  destruct (Nat.eqb_spec m 0) as [->|Nm]; simpl; [exists c; split; auto; apply (mat_ext _ _ _ _ _ HC); intros; lia|].
  destruct (Nat.eqb_spec n 0) as [->|Nn]; simpl; [exists c; split; auto; apply (mat_ext _ _ _ _ _ HC); intros; lia|].
  destruct (Nat.eqb_spec k 0) as [->|Nk].
  - destruct K as [K| ->]; [congruence|]. eexists. split; [reflexivity|]. apply (mat_ext _ _ _ _ _ (filled_matrix _ _ _ _ zero HC)).
    intros i j Hi Hj. simpl. ring.
  - rewrite !small_i32 by auto. simpl.
    destruct (gemm_ok NoTrans m n k alpha a b beta c fa fb fc HC HB Nm Nk Nn) as (d & E & M).
    + intros i l Hi Hl. simpl. apply (mat_get _ _ _ _ _ _ HA); auto.
    + simpl in E. rewrite E. simpl. eexists. split; [reflexivity|exact M].
Qed.

(** c := alpha a^T b + beta c *)
Theorem C97_mat_t_mat_mul c alpha a b beta m n k fa fb fc : is_matrix c m n fc -> is_matrix a k m fa -> is_matrix b k n fb ->
  small m -> small n -> small k -> k <> 0 \/ beta = zero ->
  exists c', mat_t_mat_mul T zero add mul conj c alpha a b beta = Ok c' /\
    is_matrix c' m n (fun i j => alpha *' total k (fun l => fa l i *' fb l j) +' beta *' fc i j).
Proof using RT.
  intros HC HA HB Sm Sn Sk K. unfold mat_t_mat_mul. assert (HC' := HC). assert (HA' := HA). assert (HB' := HB).
  destruct HC' as (-> & -> & LC & _), HA' as (-> & -> & LA & _), HB' as (-> & -> & LB & _). rewrite !Nat.eqb_refl. simpl.
  destruct (Nat.eqb_spec m 0) as [->|Nm]; simpl; [exists c; split; auto; apply (mat_ext _ _ _ _ _ HC); intros; lia|].
  destruct (Nat.eqb_spec n 0) as [->|Nn]; simpl; [exists c; split; auto; apply (mat_ext _ _ _ _ _ HC); intros; lia|].
  destruct (Nat.eqb_spec k 0) as [->|Nk].
  - destruct K as [K| ->]; [congruence|]. eexists. split; [reflexivity|]. apply (mat_ext _ _ _ _ _ (filled_matrix _ _ _ _ zero HC)).
    intros i j Hi Hj. simpl. ring.
  - rewrite !small_i32 by auto. simpl.
    destruct (gemm_ok Trans m n k alpha a b beta c (fun i l => fa l i) fb fc HC HB Nm Nk Nn) as (d & E & M).
    + intros i l Hi Hl. simpl. apply (mat_get _ _ _ _ _ _ HA); auto.
    + simpl in E. rewrite E. simpl. eexists. split; [reflexivity|exact M].
Qed.

(** every other combination of sizes is refused *)
Theorem C97_mul_sizes c alpha a b beta :
  (d_nrow a <> d_nrow c \/ d_nrow b <> d_ncol a \/ d_ncol b <> d_ncol c -> mat_mat_mul T zero add mul conj c alpha a b beta = Err "matrices are incompatible") /\
  (d_ncol a <> d_nrow c \/ d_nrow b <> d_nrow a \/ d_ncol b <> d_ncol c -> mat_t_mat_mul T zero add mul conj c alpha a b beta = Err "matrices are incompatible").
Proof using zero.
  unfold mat_mat_mul, mat_t_mat_mul. split; intros H.
  - destruct (Nat.eqb_spec (d_nrow a) (d_nrow c)); simpl; auto. destruct (Nat.eqb_spec (d_nrow b) (d_ncol a)); simpl; auto. destruct (Nat.eqb_spec (d_ncol b) (d_ncol c)); simpl; auto. lia.
  - destruct (Nat.eqb_spec (d_ncol a) (d_nrow c)); simpl; auto. destruct (Nat.eqb_spec (d_nrow b) (d_nrow a)); simpl; auto. destruct (Nat.eqb_spec (d_ncol b) (d_ncol c)); simpl; auto. lia.
Qed.

Lemma gemv_ok ta m n alpha a x beta y fa fx fy : m <> 0 -> n <> 0 ->
  let '(lenx, leny) := match ta with NoTrans => (n, m) | _ => (m, n) end in
  is_vector x lenx fx -> is_vector y leny fy -> (forall i l, i < leny -> l < lenx -> opget T conj ta (d_data a) m i l = Ok (fa i l)) ->
  exists d, gemv T zero add mul conj ta m n alpha (d_data a) m x beta y = Ok d /\ is_vector d leny (fun i => alpha *' total lenx (fun l => fa i l *' fx l) +' beta *' fy i).
Proof using zero.
  intros Hm Hn. destruct (match ta with NoTrans => (n, m) | _ => (m, n) end) as [lenx leny] eqn:EL. intros HX HY HA. unfold gemv, assert_.
  rewrite (proj2 (Nat.leb_le (Nat.max 1 m) m)) by lia. simpl. destruct (Nat.eqb_spec m 0); [lia|]. destruct (Nat.eqb_spec n 0); [lia|]. simpl. rewrite EL.
  destruct (upd1 zero 0 leny (fun i => i) (fun i z => alpha *' total lenx (fun l => fa i l *' fx l) +' beta *' z)
    (fun i y => s <- dot T zero add lenx (fun l => p <- opget T conj ta (d_data a) m i l ;; q <- vget x l ;; Ok (mul p q)) ;; z <- vget y i ;; vset y i (add (mul alpha s) (mul beta z))) y) as (d & E & L & V & _).
  - lia.
  - intros i Hi. destruct HY as [-> _]. lia.
  - auto.
  - intros i d Hi L. rewrite dot_total with (g := fun l => fa i l *' fx l).
    + simpl. rewrite (vget_ok _ _ zero); [reflexivity|]. destruct HY as [LY _]. lia.
    + intros l Hl. rewrite HA by lia. simpl. now rewrite (vec_get _ _ _ _ HX) by lia.
  - exists d. split; [exact E|]. apply vec_intro; [destruct HY; lia|]. intros i Hi. rewrite V by lia. now rewrite (vec_nth _ _ _ _ HY).
Qed.
Lemma v_fill_vec (v : list T) n f z : is_vector v n f -> is_vector (v_fill T v z) n (fun _ => z).
Proof using zero.
  intros [L H]. split; [unfold v_fill; rewrite map_length; auto|]. intros i Hi. unfold v_fill. rewrite nth_error_map, H by auto. reflexivity.
Qed.
Lemma vec_ext (v : list T) n f g : is_vector v n f -> (forall i, i < n -> f i = g i) -> is_vector v n g.
Proof using zero. intros [L H] E. split; auto. intros i Hi. rewrite H by auto. now rewrite E. Qed.

(** v := alpha a u *)
Theorem C97_mat_vec_mul v alpha a u m n fa fu fv : is_vector v m fv -> is_matrix a m n fa -> is_vector u n fu -> small m -> small n ->
  exists v', mat_vec_mul T zero add mul conj v alpha a u = Ok v' /\ is_vector v' m (fun i => alpha *' total n (fun j => fa i j *' fu j)).
Proof using RT.
  intros HV HA HU Sm Sn. unfold mat_vec_mul. assert (HV' := HV). assert (HU' := HU). assert (HA' := HA).
  destruct HV' as [-> _], HU' as [-> _], HA' as (-> & -> & _ & _). rewrite !Nat.eqb_refl. simpl.
  destruct (Nat.eqb_spec m 0) as [->|Nm]; [exists v; split; auto; destruct HV; split; auto; intros; lia|].
  destruct (Nat.eqb_spec n 0) as [->|Nn].
  - eexists. split; [reflexivity|]. eapply vec_ext; [apply (v_fill_vec _ _ _ zero HV)|]. intros. simpl. ring.
  - rewrite !small_i32 by auto. simpl. destruct (gemv_ok NoTrans m n alpha a u zero v fa fu fv Nm Nn HU HV) as (d & E & V).
    + intros i l Hi Hl. apply (mat_get _ _ _ _ _ _ HA); auto.
    + exists d. split; [exact E|]. eapply vec_ext; [exact V|]. intros. simpl. ring.
Qed.

(** v := alpha a u + beta v; u may be empty only if beta is zero *)
Theorem C97_mat_vec_mul_update v alpha a u beta m n fa fu fv : is_vector v m fv -> is_matrix a m n fa -> is_vector u n fu -> small m -> small n -> n <> 0 \/ beta = zero ->
  exists v', mat_vec_mul_update T zero add mul conj v alpha a u beta = Ok v' /\ is_vector v' m (fun i => alpha *' total n (fun j => fa i j *' fu j) +' beta *' fv i).
Proof using RT.
  intros HV HA HU Sm Sn K. unfold mat_vec_mul_update. assert (HV' := HV). assert (HU' := HU). assert (HA' := HA).
  destruct HV' as [-> _], HU' as [-> _], HA' as (-> & -> & _ & _). rewrite !Nat.eqb_refl. simpl.
  destruct (Nat.eqb_spec m 0) as [->|Nm]; [exists v; split; auto; destruct HV; split; auto; intros; lia|].
  destruct (Nat.eqb_spec n 0) as [->|Nn].
  - destruct K as [K| ->]; [congruence|]. eexists. split; [reflexivity|]. eapply vec_ext; [apply (v_fill_vec _ _ _ zero HV)|]. intros. simpl. ring.
  - rewrite !small_i32 by auto. simpl. destruct (gemv_ok NoTrans m n alpha a u beta v fa fu fv Nm Nn HU HV) as (d & E & V).
    + intros i l Hi Hl. apply (mat_get _ _ _ _ _ _ HA); auto.
    + exists d. split; [exact E|exact V].
Qed.

(** v := alpha u^T a *)
Theorem C97_vec_mat_mul v alpha u a m n fa fu fv : is_vector v n fv -> is_matrix a m n fa -> is_vector u m fu -> small m -> small n ->
  exists v', vec_mat_mul T zero add mul conj v alpha u a = Ok v' /\ is_vector v' n (fun j => alpha *' total m (fun i => fa i j *' fu i)).
Proof using RT.
  intros HV HA HU Sm Sn. unfold vec_mat_mul. assert (HV' := HV). assert (HU' := HU). assert (HA' := HA).
  destruct HV' as [-> _], HU' as [-> _], HA' as (-> & -> & _ & _). rewrite !Nat.eqb_refl. simpl.
  destruct (Nat.eqb_spec n 0) as [->|Nn]; [exists v; split; auto; destruct HV; split; auto; intros; lia|].
  destruct (Nat.eqb_spec m 0) as [->|Nm].
  - eexists. split; [reflexivity|]. eapply vec_ext; [apply (v_fill_vec _ _ _ zero HV)|]. intros. simpl. ring.
  - rewrite !small_i32 by auto. simpl. destruct (gemv_ok Trans m n alpha a u zero v (fun j i => fa i j) fu fv Nm Nn HU HV) as (d & E & V).
    + intros i l Hi Hl. apply (mat_get _ _ _ _ _ _ HA); auto.
    + exists d. split; [exact E|]. eapply vec_ext; [exact V|]. intros. simpl. ring.
Qed.

Theorem C97_vec_sizes v alpha a u beta : length v <> d_nrow a \/ length u <> d_ncol a ->
  mat_vec_mul T zero add mul conj v alpha a u = Err "matrix and vectors are incompatible" /\
  mat_vec_mul_update T zero add mul conj v alpha a u beta = Err "matrix and vectors are incompatible" /\
  vec_mat_mul T zero add mul conj u alpha v a = Err "matrix and vectors are incompatible".
Proof using zero.
  intros H. unfold mat_vec_mul, mat_vec_mul_update, vec_mat_mul. destruct (Nat.eqb_spec (length v) (d_nrow a)); simpl; auto. destruct (Nat.eqb_spec (length u) (d_ncol a)); simpl; auto. lia.
Qed.

Lemma ger_ok m n alpha x y a fx fy fa : is_matrix a m n fa -> is_vector x m fx -> is_vector y n fy -> m <> 0 ->
  exists d, ger T add mul m n alpha x y (d_data a) m = Ok d /\ is_matrix (with_data T a d) m n (fun i j => alpha *' (fx i *' fy j) +' fa i j).
Proof using zero.
  intros HA HX HY Hm. unfold ger, assert_. rewrite (proj2 (Nat.leb_le (Nat.max 1 m) m)) by lia. simpl.
  destruct (upd2 zero n (fun _ => 0) (fun _ => m) (fun j i => i + j * m) (fun j i z => alpha *' (fx i *' fy j) +' z)
    (fun j i a => p <- vget x i ;; q <- vget y j ;; z <- vget a (i + j * m) ;; vset a (i + j * m) (add (mul alpha (mul p q)) z)) (d_data a)) as (d & E & L & V & _).
  - lia.
  - intros j i Hj Hi. destruct HA as (_ & _ & LC & _). rewrite LC. apply idx_lt; lia.
  - intros j i j' i' Hj Hi Hj' Hi' Q. apply idx_inj in Q; lia.
  - intros j i d Hj Hi L. rewrite (vec_get _ _ _ _ HX), (vec_get _ _ _ _ HY) by lia. simpl. rewrite (vget_ok _ _ zero); [reflexivity|]. destruct HA as (_ & _ & LC & _). rewrite L, LC. apply idx_lt; lia.
  - exists d. split; [exact E|]. destruct HA as (R & C & LC & HA'). apply is_matrix_dval with (zero := zero); auto; [simpl; lia|].
    intros i j Hi Hj. simpl. rewrite V by lia. rewrite (mat_nth a m n fa) by (auto; split; auto). reflexivity.
Qed.

(** a := alpha u v^T and a := a + alpha u v^T *)
Theorem C97_vec_outer a alpha u v m n fa fu fv : is_matrix a m n fa -> is_vector u m fu -> is_vector v n fv -> small m -> small n -> m <> 0 ->
  (exists a', vec_outer T zero add mul a alpha u v = Ok a' /\ is_matrix a' m n (fun i j => alpha *' (fu i *' fv j))) /\
  (exists a', vec_outer_update T add mul a alpha u v = Ok a' /\ is_matrix a' m n (fun i j => fa i j +' alpha *' (fu i *' fv j))).
Proof using RT.
  intros HA HU HV Sm Sn Nm. unfold vec_outer, vec_outer_update. assert (HV' := HV). assert (HU' := HU). assert (HA' := HA).
  destruct HV' as [-> _], HU' as [-> _], HA' as (-> & -> & _ & _). rewrite !Nat.eqb_refl. simpl. rewrite !small_i32 by auto. simpl. split.
  - destruct (ger_ok m n alpha u v (d_fill T a zero) fu fv _ (filled_matrix _ _ _ _ zero HA) HU HV Nm) as (d & E & M). simpl in E. rewrite E. simpl.
    eexists. split; [reflexivity|]. apply (mat_ext _ _ _ _ _ M). intros i j Hi Hj. ring.
  - destruct (ger_ok m n alpha u v a fu fv fa HA HU HV Nm) as (d & E & M). rewrite E. simpl.
    eexists. split; [reflexivity|]. apply (mat_ext _ _ _ _ _ M). intros i j Hi Hj. ring.
Qed.

(** one triangle of a square matrix *)
Lemma tri_ok upper n (body : nat -> nat -> res T) (v : nat -> nat -> T) (g : nat -> nat -> T -> T -> T) c fc : is_matrix c n n fc ->
  (forall i j, i < n -> j < n -> body j i = Ok (v j i)) ->
  exists d, for_range 0 n (fun j c => for_range (tri_lo upper j) (tri_hi upper n j) (fun i c =>
      s <- body j i ;; z <- vget c (i + j * n) ;; vset c (i + j * n) (g j i s z)) c) (d_data c) = Ok d /\
    exists f, is_matrix (with_data T c d) n n f /\ forall i j, i < n -> j < n -> (in_triangle upper i j -> f i j = g j i (v j i) (fc i j)) /\ (~ in_triangle upper i j -> f i j = fc i j).
Proof using zero.
  intros HC HB. assert (HC' := HC). destruct HC' as (R & C & LC & HG).
  destruct (upd2 zero n (tri_lo upper) (tri_hi upper n) (fun j i => i + j * n) (fun j i => g j i (v j i))
     (fun j i c => s <- body j i ;; z <- vget c (i + j * n) ;; vset c (i + j * n) (g j i s z)) (d_data c)) as (d & E & L & V & U).
  - intros i Hi. unfold tri_lo, tri_hi. destruct upper; lia.
  - intros j i Hj Hi. rewrite LC. unfold tri_lo, tri_hi in Hi. apply idx_lt; destruct upper; lia.
  - intros j i j' i' Hj Hi Hj' Hi' Q. unfold tri_lo, tri_hi in *. apply idx_inj in Q; destruct upper; lia.
  - intros j i d Hj Hi L. assert (i < n) by (unfold tri_lo, tri_hi in Hi; destruct upper; lia).
    rewrite HB by lia. simpl. rewrite (vget_ok _ _ zero) by (rewrite L, LC; apply idx_lt; lia). reflexivity.
  - exists d. split; [exact E|]. exists (fun i j => nth (i + j * n) d zero). split.
    + apply is_matrix_dval with (zero := zero); simpl; auto; lia.
    + intros i j Hi Hj. split; intros HT.
      * rewrite V by (auto; unfold in_triangle, tri_lo, tri_hi in *; destruct upper; lia). now rewrite (mat_nth c n n fc).
      * rewrite U; [now rewrite (mat_nth c n n fc)|]. intros j' i' Hj' Hi' Q. unfold in_triangle, tri_lo, tri_hi in *.
        apply idx_inj in Q; [|destruct upper; lia|lia]. destruct Q as [-> ->]. destruct upper; lia.
Qed.

(** c := alpha a a^T + beta c, or alpha a^T a + beta c, in the chosen triangle; the other triangle is left alone *)
Theorem C97_mat_sym_rank_op c a alpha beta upper second n k fa fc : is_matrix c n n fc -> is_matrix a (if second : bool then k else n) (if second : bool then n else k) fa ->
  small n -> small k -> n <> 0 -> (second = true -> k <> 0) ->
  exists c' f, mat_sym_rank_op T zero add mul conj c a alpha beta upper second = Ok c' /\ is_matrix c' n n f /\ forall i j, i < n -> j < n ->
    (in_triangle upper i j -> f i j = alpha *' total k (fun l => if second then fa l i *' fa l j else fa i l *' fa j l) +' beta *' fc i j) /\
    (~ in_triangle upper i j -> f i j = fc i j).
Proof using zero.
  intros HC HA Sn Sk Nn Nk. unfold mat_sym_rank_op, rank_args. assert (HC' := HC). assert (HA' := HA).
  destruct HC' as (-> & -> & LC & _), HA' as (-> & -> & LA & _). rewrite !Nat.eqb_refl. simpl.
  assert (G : forall tr lda ga, (match tr with NoTrans => n | _ => k end) <= lda -> lda <> 0 -> (forall i l, i < n -> l < k -> opget T conj tr (d_data a) lda i l = Ok (ga i l)) ->
    exists d, syrk T zero add mul conj upper tr n k alpha (d_data a) lda beta (d_data c) n = Ok d /\
    exists f, is_matrix (with_data T c d) n n f /\ forall i j, i < n -> j < n -> (in_triangle upper i j -> f i j = alpha *' total k (fun l => ga i l *' ga j l) +' beta *' fc i j) /\ (~ in_triangle upper i j -> f i j = fc i j)).
  { intros tr lda ga HL HZ HG. unfold syrk, assert_. rewrite (proj2 (Nat.leb_le (Nat.max 1 (match tr with NoTrans => n | _ => k end)) lda)) by lia.
    rewrite (proj2 (Nat.leb_le (Nat.max 1 n) n)) by lia. simpl.
    destruct (tri_ok upper n (fun j i => dot T zero add k (fun l => x <- opget T conj tr (d_data a) lda i l ;; y <- opget T conj tr (d_data a) lda j l ;; Ok (mul x y)))
      (fun j i => total k (fun l => ga i l *' ga j l)) (fun j i s z => alpha *' s +' beta *' z) c fc HC) as (d & E & F).
    - intros i j Hi Hj. rewrite dot_total with (g := fun l => ga i l *' ga j l); [reflexivity|]. intros l Hl. rewrite HG by lia. simpl. now rewrite HG by lia.
    - exists d. split; [exact E|exact F]. }
  destruct second; simpl; rewrite !Nat.eqb_refl; simpl; rewrite !small_i32 by auto; simpl.
  - destruct (G Trans k (fun i l => fa l i)) as (d & E & f & M & F); [lia|auto| |].
    + intros i l Hi Hl. apply (mat_get _ _ _ _ _ _ HA); auto.
    + rewrite E. simpl. exists (with_data T c d), f. auto.
  - destruct (G NoTrans n fa) as (d & E & f & M & F); [lia|auto| |].
    + intros i l Hi Hl. apply (mat_get _ _ _ _ _ _ HA); auto.
    + rewrite E. simpl. exists (with_data T c d), f. auto.
Qed.

(** c := alpha a a^H + beta c, or alpha a^H a + beta c, in the chosen triangle; the imaginary parts of the old diagonal are ignored *)
Theorem C97_complex_mat_herm_rank_op c a alpha beta upper second n k fa fc : is_matrix c n n fc -> is_matrix a (if second : bool then k else n) (if second : bool then n else k) fa ->
  small n -> small k -> n <> 0 -> (second = true -> k <> 0) ->
  exists c' f, complex_mat_herm_rank_op T zero add mul conj re c a alpha beta upper second = Ok c' /\ is_matrix c' n n f /\ forall i j, i < n -> j < n ->
    (in_triangle upper i j -> f i j = alpha *' total k (fun l => if second then conj (fa l i) *' fa l j else fa i l *' conj (fa j l)) +' beta *' (if i =? j then re (fc i j) else fc i j)) /\
    (~ in_triangle upper i j -> f i j = fc i j).
Proof using zero conj_conj.
  intros HC HA Sn Sk Nn Nk. unfold complex_mat_herm_rank_op, rank_args. assert (HC' := HC). assert (HA' := HA).
  destruct HC' as (-> & -> & LC & _), HA' as (-> & -> & LA & _). rewrite !Nat.eqb_refl. simpl.
  assert (G : forall tr lda ga, (match tr with NoTrans => n | _ => k end) <= lda -> lda <> 0 -> (forall i l, i < n -> l < k -> opget T conj tr (d_data a) lda i l = Ok (ga i l)) ->
    exists d, herk T zero add mul conj re upper tr n k alpha (d_data a) lda beta (d_data c) n = Ok d /\
    exists f, is_matrix (with_data T c d) n n f /\ forall i j, i < n -> j < n -> (in_triangle upper i j -> f i j = alpha *' total k (fun l => ga i l *' conj (ga j l)) +' beta *' (if i =? j then re (fc i j) else fc i j)) /\ (~ in_triangle upper i j -> f i j = fc i j)).
  { intros tr lda ga HL HZ HG. unfold herk, assert_. rewrite (proj2 (Nat.leb_le (Nat.max 1 (match tr with NoTrans => n | _ => k end)) lda)) by lia.
    rewrite (proj2 (Nat.leb_le (Nat.max 1 n) n)) by lia. simpl.
    destruct (tri_ok upper n (fun j i => dot T zero add k (fun l => x <- opget T conj tr (d_data a) lda i l ;; y <- opget T conj tr (d_data a) lda j l ;; Ok (mul x (conj y))))
      (fun j i => total k (fun l => ga i l *' conj (ga j l))) (fun j i s z => alpha *' s +' beta *' (if i =? j then re z else z)) c fc HC) as (d & E & F).
    - intros i j Hi Hj. rewrite dot_total with (g := fun l => ga i l *' conj (ga j l)); [reflexivity|]. intros l Hl. rewrite HG by lia. simpl. now rewrite HG by lia.
    - exists d. split; [exact E|exact F]. }
  destruct second; simpl; rewrite !Nat.eqb_refl; simpl; rewrite !small_i32 by auto; simpl.
  - destruct (G ConjTrans k (fun i l => conj (fa l i))) as (d & E & f & M & F); [lia|auto| |].
    + intros i l Hi Hl. simpl. now rewrite (mat_get _ _ _ _ _ _ HA) by auto.
    + rewrite E. simpl. exists (with_data T c d), f. splits; auto. intros i j Hi Hj. destruct (F i j Hi Hj) as [F1 F2]. split; auto. intros HT. rewrite F1 by auto. f_equal. f_equal.
      clear - conj_conj. induction k; simpl; auto. rewrite IHk. now rewrite conj_conj.
  - destruct (G NoTrans n fa) as (d & E & f & M & F); [lia|auto| |].
    + intros i l Hi Hl. apply (mat_get _ _ _ _ _ _ HA); auto.
    + rewrite E. simpl. exists (with_data T c d), f. auto.
Qed.

(** sums along the rows and along the columns *)
Theorem C97_sums a v w m n fa fv fw : is_matrix a m n fa -> is_vector v m fv -> is_vector w n fw ->
  (exists v', mat_sum_cols T zero add v a = Ok v' /\ is_vector v' m (fun i => total n (fun j => fa i j))) /\
  (exists w', mat_sum_rows T zero add w a = Ok w' /\ is_vector w' n (fun j => total m (fun i => fa i j))).
Proof using zero.
  intros HA HV HW. unfold mat_sum_cols, mat_sum_rows. assert (HA' := HA). destruct HA' as (-> & -> & _ & HG). assert (HV' := HV). assert (HW' := HW). destruct HV' as [LV _], HW' as [LW _]. rewrite LV, LW, !Nat.eqb_refl. simpl.
  assert (IN : forall p (g : nat -> T) (h : nat -> res T) k d, p < length d -> (forall j, j < k -> h j = Ok (g j)) ->
     for_range 0 k (fun j v => s <- vget v p ;; x <- h j ;; vset v p (add s x)) (upd d p zero) = Ok (upd d p (total k g))).
  { intros p g h k d Hp Hh. destruct (for_range_inv (fun j x => x = upd d p (total j g)) (fun j v => s <- vget v p ;; x <- h j ;; vset v p (add s x)) 0 k (upd d p zero)) as (x & E & ->); auto; try lia.
    intros j x Hj ->. rewrite (vget_ok _ _ zero) by (rewrite upd_length; auto). rewrite nth_upd_eq by auto. simpl. rewrite Hh by lia. simpl.
    rewrite vset_ok by (rewrite upd_length; auto). eexists. split; [reflexivity|].
    apply nth_ext_d with (d := zero); rewrite !upd_length; auto. intros q Hq. rewrite !nth_upd by (rewrite ?upd_length; auto). destruct (q =? p) eqn:Q; auto. }
  split.
  - destruct (upd1 zero 0 m (fun i => i) (fun i _ => total n (fun j => fa i j))
      (fun i v => v <- vset v i zero ;; for_range 0 n (fun j v => s <- vget v i ;; x <- d_get a i j ;; vset v i (add s x)) v) v) as (d & E & L & V & _); try lia; auto.
    + intros i d Hi L. rewrite vset_ok by lia. simpl. rewrite (IN i (fun j => fa i j) (fun j => d_get a i j)) by (try lia; intros; apply HG; lia). rewrite vset_ok by lia. reflexivity.
    + exists d. split; [exact E|]. apply vec_intro; [lia|]. intros. apply V. lia.
  - destruct (upd1 zero 0 n (fun i => i) (fun j _ => total m (fun i => fa i j))
      (fun j v => v <- vset v j zero ;; for_range 0 m (fun i v => s <- vget v j ;; x <- d_get a i j ;; vset v j (add s x)) v) w) as (d & E & L & V & _); try lia; auto.
    + intros i d Hi L. rewrite vset_ok by lia. simpl. rewrite (IN i (fun j => fa j i) (fun j => d_get a j i)) by (try lia; intros; apply HG; lia). rewrite vset_ok by lia. reflexivity.
    + exists d. split; [exact E|]. apply vec_intro; [lia|]. intros. apply V. lia.
Qed.
End Thm.

Theorem C97_rank_sizes T zero add mul conj re (c a : dmat T) alpha beta upper second :
  d_nrow c <> d_ncol c \/ (if second : bool then d_ncol a else d_nrow a) <> d_ncol c ->
  exists e e', mat_sym_rank_op T zero add mul conj c a alpha beta upper second = Err e /\ complex_mat_herm_rank_op T zero add mul conj re c a alpha beta upper second = Err e'.
Proof.
  intros H. unfold mat_sym_rank_op, complex_mat_herm_rank_op, rank_args. destruct (Nat.eqb_spec (d_nrow c) (d_ncol c)); simpl; [|eauto].
  destruct second; simpl.
  - destruct (Nat.eqb_spec (d_ncol a) (d_ncol c)); simpl; [lia|eauto].
  - destruct (Nat.eqb_spec (d_nrow a) (d_ncol c)); simpl; [lia|eauto].
Qed.

(* ------------------------------------------------------------------ *)
(** * The cases with empty sizes that go wrong *)
Local Open Scope R_scope.
Notation Rmmul := (mat_mat_mul R 0 Rplus Rmult (fun x => x)).
Notation Rtmmul := (mat_t_mat_mul R 0 Rplus Rmult (fun x => x)).

(** mat_mat_mul and mat_t_mat_mul document c := alpha a b + beta c. With an empty inner dimension the product is zero and c
    should become beta c, but both functions set c to zero: beta is ignored. *)
Theorem C97_inner_zero_refuted : exists a a2 b c c', is_matrix a 1 0 (fun _ _ => 0) /\ is_matrix a2 0 1 (fun _ _ => 0) /\ is_matrix b 0 1 (fun _ _ => 0) /\ is_matrix c 1 1 (fun _ _ => 5) /\
  Rmmul c 1 a b 1 = Ok c' /\ Rtmmul c 1 a2 b 1 = Ok c' /\ is_matrix c' 1 1 (fun _ _ => 0) /\ 1 * total 0 Rplus 0 (fun _ => 0) + 1 * 5 <> 0.
Proof.
  exists (mkD 1 0 nil), (mkD 0 1 nil), (mkD 0 1 nil), (mkD 1 1 [5]), (mkD 1 1 [0]). unfold is_matrix. splits; auto; simpl; intros; try lia; try lra;
  destruct i, j; try lia; reflexivity.
Qed.

(** mat_vec_mul_update documents v := alpha a u + beta v. With an empty u it sets v to zero instead of beta v. *)
Theorem C97_update_zero_refuted : exists a v v', is_matrix a 1 0 (fun _ _ => 0) /\ is_vector v 1 (fun _ => 5) /\
  mat_vec_mul_update R 0 Rplus Rmult (fun x => x) v 1 a nil 1 = Ok v' /\ is_vector v' 1 (fun _ => 0) /\ 1 * total 0 Rplus 0 (fun _ => 0) + 1 * 5 <> 0.
Proof.
  exists (mkD 1 0 nil), [5], [0]. unfold is_matrix, is_vector. splits; auto; simpl; intros; try lia; try lra; destruct i; try lia; reflexivity.
Qed.

(** mat_sym_rank_op and complex_mat_herm_rank_op pass the number of rows of a as leading dimension. In the second case
    with an a of zero rows (c := beta c) that is 0, which BLAS refuses as an illegal argument (the reference XERBLA stops the program). *)
Theorem C97_rank_zero_refuted : exists (a c : dmat R), is_matrix a 0 1 (fun _ _ => 0) /\ is_matrix c 1 1 (fun _ _ => 5) /\
  forall alpha beta upper, mat_sym_rank_op R 0 Rplus Rmult (fun x => x) c a alpha beta upper true = Panic /\
    complex_mat_herm_rank_op R 0 Rplus Rmult (fun x => x) (fun x => x) c a alpha beta upper true = Panic.
Proof.
  exists (mkD 0 1 nil), (mkD 1 1 [5]). unfold is_matrix. splits; auto; simpl; intros; try lia; destruct i, j; try lia; reflexivity.
Qed.

(** vec_outer and vec_outer_update accept an empty u (a matrix without rows) and pass the leading dimension 0, an
    illegal argument; the products with an empty u or v in mat_vec_mul are guarded, these are not. *)
Theorem C97_outer_zero_refuted : exists (a : dmat R), is_matrix a 0 1 (fun _ _ => 0) /\
  forall alpha x, vec_outer R 0 Rplus Rmult a alpha nil [x] = Panic /\ vec_outer_update R Rplus Rmult a alpha nil [x] = Panic.
Proof. exists (mkD 0 1 nil). unfold is_matrix. splits; auto; simpl; intros; lia. Qed.

(* ------------------------------------------------------------------ *)
(** * The hypotheses hold for the real and for the complex numbers *)
Lemma C_ring_th : ring_theory (RtoC 0) (RtoC 1) Cplus Cmult Cminus Copp eq.
Proof. constructor; intros; unfold Cminus, Cplus, Cmult, Copp, RtoC; apply injective_projections; simpl; ring. Qed.
Lemma Cconj_inv x : Cconj (Cconj x) = x.
Proof. destruct x. unfold Cconj; simpl. now rewrite Ropp_involutive. Qed.

Lemma smallish n : (n <= 10)%nat -> small n.
Proof. unfold small. lia. Qed.

Example real_product : exists c', Rmmul (mkD 2 1 [7; 8]) 2 (mkD 2 2 [1; 2; 3; 4]) (mkD 2 1 [5; 6]) 3 = Ok c' /\
  is_matrix c' 2 1 (fun i j => nth i [2 * (1 * 5 + 3 * 6) + 3 * 7; 2 * (2 * 5 + 4 * 6) + 3 * 8] 0).
Proof.
  destruct (C97_mat_mat_mul R 0 1 Rplus Rmult Rminus Ropp RTheory (fun x => x) (mkD 2 1 [7; 8]) 2 (mkD 2 2 [1; 2; 3; 4]) (mkD 2 1 [5; 6]) 3 2 1 2
    (fun i j => nth (i + j * 2) [1; 2; 3; 4] 0) (fun i j => nth i [5; 6] 0) (fun i j => nth i [7; 8] 0)) as (c' & E & M).
  1-3: unfold is_matrix; splits; auto; simpl; intros i j Hi Hj; destruct i as [|[|]], j as [|[|]]; try lia; reflexivity.
  1-3: apply smallish; lia.
  - left. discriminate.
  - exists c'. split; [exact E|]. apply (mat_ext _ 0 _ _ _ _ _ M). intros i j Hi Hj. destruct i as [|[|]], j; try lia; simpl; ring.
Qed.
Example complex_herm : forall (z w : C), exists c' f, complex_mat_herm_rank_op C 0%C Cplus Cmult Cconj (fun x => RtoC (fst x)) (mkD 1 1 [RtoC 0]) (mkD 2 1 [z; w]) 1%C 0%C true true = Ok c' /\
  is_matrix c' 1 1 f /\ f 0%nat 0%nat = (Cconj z * z + Cconj w * w)%C.
Proof.
  intros z w. destruct (C97_complex_mat_herm_rank_op C 0%C Cplus Cmult Cconj (fun x => RtoC (fst x)) Cconj_inv (mkD 1 1 [RtoC 0]) (mkD 2 1 [z; w]) 1%C 0%C true true 1 2
    (fun i j => nth i [z; w] 0%C) (fun i j => RtoC 0)) as (c' & f & E & M & F).
  1-2: unfold is_matrix; splits; auto; simpl; intros i j Hi Hj; destruct i as [|[|]], j as [|[|]]; try lia; reflexivity.
  1-2: apply smallish; lia.
  1-2: discriminate.
  exists c', f. splits; auto. destruct (F 0 0)%nat as [F1 _]; auto. rewrite F1 by (simpl; lia). simpl.
  unfold Cplus, Cmult, Cconj, RtoC; apply injective_projections; simpl; ring.
Qed.

Print Assumptions C97_mat_mat_mul.
Print Assumptions C97_mat_t_mat_mul.
Print Assumptions C97_mul_sizes.
Print Assumptions C97_mat_vec_mul.
Print Assumptions C97_mat_vec_mul_update.
Print Assumptions C97_vec_mat_mul.
Print Assumptions C97_vec_sizes.
Print Assumptions C97_vec_outer.
Print Assumptions C97_mat_sym_rank_op.
Print Assumptions C97_complex_mat_herm_rank_op.
Print Assumptions C97_sums.
Print Assumptions C97_rank_sizes.
Print Assumptions C97_inner_zero_refuted.
Print Assumptions C97_update_zero_refuted.
Print Assumptions C97_rank_zero_refuted.
Print Assumptions C97_outer_zero_refuted.
