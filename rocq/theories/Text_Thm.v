(** C101: vectors, matrices and numbers as text. *)
From Coq Require Import Ascii DecimalString Reals Lra.
From Verif Require Import Base RBase Dense_Model Dense_Proofs Dense_Thm Blas_Model Blas_Thm MM_Model MM_Write_Thm Text_Model.
Local Open Scope string_scope.
Local Open Scope nat_scope.

(* ------------------------------------------------------------------ *)
(** * Specification *)

(** the texts t(0), ..., t(n-1), separated by [sep] *)
Definition joined (sep : string) (n : nat) (t : nat -> string) : string := String.concat sep (map t (seq 0 n)).
(** how often the character occurs in the text *)
Fixpoint count (c : ascii) (s : string) : nat := match s with EmptyString => 0 | String d t => (if Ascii.eqb d c then 1 else 0) + count c t end.
(** [s] is [x], preceded by spaces up to the width [w] *)
Definition right_justified (w : nat) (x s : string) : Prop := (exists k, s = fill " " k ++ x) /\ String.length s = Nat.max w (String.length x).
(** what `{:e}` gives for a finite number: a mantissa without the letter e, then e, a minus sign for a negative
    exponent, and the digits of the exponent *)
Definition exponential (s mantissa : string) (negative : bool) (digits : string) : Prop :=
  s = mantissa ++ "e" ++ (if negative then "-" else "") ++ digits /\ sall (fun c => negb (Ascii.eqb c "e")) mantissa = true /\
  word mantissa /\ nonempty digits = true /\ sall digit digits = true.
(** the same number in the notation of Fortran: E, the sign, and at least two digits *)
Definition fortran (mantissa : string) (negative : bool) (digits : string) : string :=
  mantissa ++ "E" ++ (if negative then "-" else "+") ++ (if String.length digits =? 1 then "0" else "") ++ digits.

(* ------------------------------------------------------------------ *)
(** * Strings *)
Lemma slen_app a b : String.length (a ++ b) = String.length a + String.length b.
Proof. induction a; simpl; auto. Qed.
Lemma fill_len c n : String.length (fill c n) = n.
Proof. induction n; simpl; auto. Qed.
Lemma pad_len c w s : String.length (pad c w s) = Nat.max w (String.length s).
Proof. unfold pad. rewrite slen_app, fill_len. lia. Qed.
Lemma pad_right w s : right_justified w s (pad " " w s).
Proof. split; [now eexists|apply pad_len]. Qed.
Lemma concat_snoc sep l x : String.concat sep (l ++ [x])%list = match l with [] => x | _ => String.concat sep l ++ sep ++ x end.
Proof. induction l as [|a l IH]; [reflexivity|]. destruct l as [|b l]; [reflexivity|]. change (String.concat sep ((a :: b :: l) ++ [x])%list) with (a ++ sep ++ String.concat sep ((b :: l) ++ [x])%list). rewrite IH. simpl. now rewrite !sapp_assoc. Qed.
Lemma joined_S sep n t : joined sep (S n) t = if n =? 0 then t 0 else joined sep n t ++ sep ++ t n.
Proof. unfold joined. rewrite seq_S, map_app. simpl map at 2. rewrite concat_snoc. destruct n; [reflexivity|]. simpl Nat.eqb. destruct (map t (seq 0 (S n))) eqn:E; [discriminate|]. reflexivity. Qed.
Lemma joined_ext sep n t u : (forall i, i < n -> t i = u i) -> joined sep n t = joined sep n u.
Proof. intros H. unfold joined. f_equal. apply map_ext_in. intros i Hi. apply in_seq in Hi. apply H. lia. Qed.
Lemma loop_app n g (f : nat -> string -> res string) buf : (forall i buf, i < n -> f i buf = Ok (buf ++ g i)) -> for_range 0 n f buf = Ok (buf ++ joined "" n g).
Proof.
  intros H. destruct (for_range_inv (fun i s => s = buf ++ joined "" i g) f 0 n buf) as (s & E & ->); [lia| | |exact E].
  - unfold joined. simpl. now rewrite sapp_nil.
  - intros i s Hi ->. rewrite H by lia. eexists. split; [reflexivity|]. rewrite sapp_assoc. f_equal. rewrite joined_S. destruct (Nat.eqb_spec i 0) as [->|]; reflexivity.
Qed.
Lemma open_join o sep n t : 0 < n -> joined "" n (fun j => (if j =? 0 then o else sep) ++ t j) = o ++ joined sep n t.
Proof.
  induction n as [|n IH]; [lia|]. intros _. rewrite !joined_S. destruct (Nat.eqb_spec n 0) as [->|]; [reflexivity|].
  rewrite IH by lia. cbn [append]. now rewrite !sapp_assoc.
Qed.
Lemma close_join c s m r : 0 < m -> joined "" m (fun i => (if 0 <? i then c ++ s else "") ++ r i) ++ c = joined s m (fun i => r i ++ c).
Proof.
  induction m as [|m IH]; [lia|]. intros _. rewrite !joined_S. destruct (Nat.eqb_spec m 0) as [->|]; [reflexivity|].
  rewrite (proj2 (Nat.ltb_lt 0 m)) by lia. rewrite <- IH by lia. cbn [append]. now rewrite !sapp_assoc.
Qed.
Lemma table o sep c s (t : nat -> nat -> string) (body : nat -> nat -> string -> res string) m n buf : 0 < m -> 0 < n ->
  (forall i j buf, i < m -> j < n -> body i j buf = Ok ((if j =? 0 then buf ++ o else buf ++ sep) ++ t i j)) ->
  exists r, for_range 0 m (fun i buf => for_range 0 n (body i) (if 0 <? i then buf ++ (c ++ s) else buf)) buf = Ok r /\
    r ++ c = buf ++ joined s m (fun i => o ++ joined sep n (t i) ++ c).
Proof.
  intros Hm Hn B. exists (buf ++ joined "" m (fun i => (if 0 <? i then c ++ s else "") ++ o ++ joined sep n (t i))). split.
  - apply loop_app. intros i b Hi. rewrite (loop_app n (fun j => (if j =? 0 then o else sep) ++ t i j)).
    + f_equal. rewrite open_join by auto. destruct (0 <? i); [|reflexivity]. now rewrite !sapp_assoc.
    + intros j b' Hj. rewrite B by auto. destruct (j =? 0); now rewrite sapp_assoc.
  - rewrite sapp_assoc, close_join by auto. f_equal. apply joined_ext. intros i Hi. now rewrite sapp_assoc.
Qed.

Lemma count_app c a b : count c (a ++ b) = count c a + count c b.
Proof. induction a; simpl; auto. rewrite IHa. lia. Qed.
Lemma count_usz c n : digit c = false -> count c (usz n) = 0.
Proof.
  intros H. unfold usz. pose proof (uint_digits (N.to_uint (N.of_nat n))) as D. induction (NilEmpty.string_of_uint _) as [|d t IH]; [reflexivity|].
  simpl in *. apply andb_true_iff in D. destruct D as [Dd Dt]. rewrite IH by auto. destruct (Ascii.eqb_spec d c) as [->|]; [congruence|reflexivity].
Qed.

(* ------------------------------------------------------------------ *)
(** * Scientific notation *)
Lemma split_e_ok m r : sall (fun c => negb (Ascii.eqb c "e")) m = true -> split_e (m ++ String "e" r) = Some (m, String "e" r).
Proof. induction m as [|c t IH]; intros H; [reflexivity|]. simpl in H |- *. apply andb_true_iff in H. destruct H as [Hc Ht]. apply negb_true_iff in Hc. now rewrite Hc, IH. Qed.
Lemma split_e_none s : sall (fun c => negb (Ascii.eqb c "e")) s = true -> split_e s = None.
Proof. induction s as [|c t IH]; intros H; [reflexivity|]. simpl in H |- *. apply andb_true_iff in H. destruct H as [Hc Ht]. apply negb_true_iff in Hc. now rewrite Hc, IH. Qed.

Lemma not_minus c d : c <> "-"%char -> String.prefix "e-" (String "e" (String c d)) = false.
Proof. intros H. destruct (String.prefix "e-" (String "e" (String c d))) eqn:E; auto. apply prefix_correct in E. exfalso. apply H. simpl in E. now injection E. Qed.

Section Numbers.
Context (V : Type) (finite : V -> bool) (show : V -> string) (show_p show_e : nat -> V -> string).
Local Notation sci := (format_scientific V finite show show_e).

(** finite numbers: the mantissa and the exponent are those of the standard library; the others: NaN, inf *)
Theorem C101_format_scientific x w p :
  (finite x = true -> forall m neg d, exponential (show_e p x) m neg d -> exists s, sci x w p = Ok s /\ right_justified w (fortran m neg d) s) /\
  (finite x = false -> exists s, sci x w p = Ok s /\ right_justified w (show x) s).
Proof.
  unfold format_scientific. split; intros F; rewrite F; cbn [negb].
  - intros m neg d (E & Hm & _ & Hn & Hd). rewrite E. cbn [append]. rewrite split_e_ok by auto. cbn [unwrap_o bind].
    assert (P : (if String.prefix "e-" (String "e" ((if neg then "-" else "") ++ d)) then ("-", drop 2 (String "e" ((if neg then "-" else "") ++ d))) else ("+", drop 1 (String "e" ((if neg then "-" else "") ++ d)))) = (if neg then "-" else "+", d)).
    { destruct neg; [destruct d; reflexivity|]. destruct d as [|c d]; [discriminate|]. simpl in Hd. apply andb_true_iff in Hd. destruct Hd as [Hc _]. cbn [append]. rewrite not_minus; [reflexivity|]. intros ->. discriminate Hc. }
    rewrite P. eexists. split; [reflexivity|].
    assert (Q : m ++ "E" ++ (if neg then "-" else "+") ++ pad "0" 2 d = fortran m neg d).
    { unfold fortran. do 3 f_equal. unfold pad. destruct d as [|c [|c' d]]; [discriminate|reflexivity|]. simpl String.length. now replace (2 - S (S (String.length d))) with 0 by lia. }
    rewrite <- Q. apply pad_right.
  - eexists. split; [reflexivity|]. apply pad_right.
Qed.
(** 3.723E+06 has at least the width asked for, and exactly this width when the text fits *)
Theorem C101_width x w p s : sci x w p = Ok s -> w <= String.length s.
Proof.
  unfold format_scientific. destruct (negb (finite x)); [intros [= <-]; rewrite pad_len; lia|]. destruct (split_e (show_e p x)) as [[a b]|]; cbn [unwrap_o bind]; [|discriminate].
  destruct (String.prefix "e-" b); intros [= <-]; rewrite pad_len; lia.
Qed.
Theorem C101_write_number b x w p q : (forall sp, q = Some sp -> forall s, sci x w sp = Ok s -> write_formatted_number V finite show show_p show_e b x w p q = Ok (b ++ s)) /\
  (q = None -> exists s, write_formatted_number V finite show show_p show_e b x w p q = Ok (b ++ s) /\ right_justified w (match p with Some k => show_p k x | None => show x end) s).
Proof.
  unfold write_formatted_number. split.
  - intros sp -> s E. rewrite E. reflexivity.
  - intros ->. destruct p; eexists; (split; [reflexivity|apply pad_right]).
Qed.

(* ------------------------------------------------------------------ *)
(** * Source code *)
Theorem C101_numpy name a m n f : is_matrix a m n f -> 0 < m -> 0 < n ->
  mat_to_numpy V show name a = Ok (name ++ " = np.array([" ++ joined "," m (fun i => "[" ++ joined "," n (fun j => show (f i j)) ++ "]") ++ "],dtype=float)").
Proof.
  intros HA Hm Hn. pose proof HA as (A1 & A2 & _ & A4). unfold mat_to_numpy. rewrite A1, A2.
  destruct (table "[" "," "]" "," (fun i j => show (f i j)) (fun i j buf => val <- d_get a i j ;; Ok ((if j =? 0 then buf ++ "[" else buf ++ ",") ++ show val)) m n (name ++ " = np.array([") Hm Hn) as (r & E & R).
  { intros i j b Hi Hj. rewrite A4 by auto. reflexivity. }
  change (for_range 0 m _ _) with (for_range 0 m (fun i buf => for_range 0 n (fun j buf => val <- d_get a i j ;; Ok ((if j =? 0 then buf ++ "[" else buf ++ ",") ++ show val)) (if 0 <? i then buf ++ "]" ++ "," else buf)) (name ++ " = np.array([")).
  rewrite E. cbn [bind]. f_equal. change "]],dtype=float)" with ("]" ++ "],dtype=float)"). rewrite <- sapp_assoc, R. now rewrite !sapp_assoc.
Qed.
Theorem C101_mathematica name a m n f : is_matrix a m n f -> 0 < m -> 0 < n ->
  mat_to_mathematica V show name a = Ok (name ++ " = {" ++ joined "," m (fun i => "{" ++ joined "," n (fun j => show (f i j)) ++ "}") ++ "};" ++ nl).
Proof.
  intros HA Hm Hn. pose proof HA as (A1 & A2 & _ & A4). unfold mat_to_mathematica. rewrite A1, A2.
  destruct (table "{" "," "}" "," (fun i j => show (f i j)) (fun i j buf => val <- d_get a i j ;; Ok ((if j =? 0 then buf ++ "{" else buf ++ ",") ++ show val)) m n (name ++ " = {") Hm Hn) as (r & E & R).
  { intros i j b Hi Hj. rewrite A4 by auto. reflexivity. }
  change (for_range 0 m _ _) with (for_range 0 m (fun i buf => for_range 0 n (fun j buf => val <- d_get a i j ;; Ok ((if j =? 0 then buf ++ "{" else buf ++ ",") ++ show val)) (if 0 <? i then buf ++ "}" ++ "," else buf)) (name ++ " = {")).
  rewrite E. cbn [bind]. f_equal. change ("}};" ++ nl) with ("}" ++ "};" ++ nl). rewrite <- sapp_assoc, R. now rewrite !sapp_assoc.
Qed.
(** the numbers in the generated Rust code are those of format_scientific *)
Theorem C101_static_matrix name a m n f (t : nat -> nat -> string) : is_matrix a m n f -> 0 < m -> 0 < n ->
  (forall i j, i < m -> j < n -> sci (f i j) 23 15 = Ok (t i j)) ->
  mat_to_static_array V finite show show_e name a = Ok (
    "// " ++ name ++ ": nrow = " ++ usz m ++ ", ncol = " ++ usz n ++ nl ++
    "#[rustfmt::skip]" ++ nl ++
    "const " ++ name ++ ": [[f64; " ++ usz n ++ "]; " ++ usz m ++ "] = [" ++ nl ++
    joined "" m (fun i => "    [" ++ joined "," n (t i) ++ " ]," ++ nl) ++
    "];" ++ nl).
Proof.
  intros HA Hm Hn T. pose proof HA as (A1 & A2 & _ & A4). unfold mat_to_static_array. rewrite A1, A2. cbv zeta.
  match goal with |- context [for_range 0 m _ ?b] => set (buf := b) end.
  destruct (table "    [" "," (" ]," ++ nl) "" t (fun i j buf => val <- d_get a i j ;; t <- sci val 23 15 ;; Ok ((if j =? 0 then buf ++ "    [" else buf ++ ",") ++ t)) m n buf Hm Hn) as (r & E & R).
  { intros i j b Hi Hj. rewrite A4 by auto. cbn [bind]. rewrite T by auto. reflexivity. }
  change (for_range 0 m _ _) with (for_range 0 m (fun i buf => for_range 0 n (fun j buf => val <- d_get a i j ;; t <- sci val 23 15 ;; Ok ((if j =? 0 then buf ++ "    [" else buf ++ ",") ++ t)) (if 0 <? i then buf ++ ((" ]," ++ nl) ++ "") else buf)) buf).
  rewrite E. cbn [bind]. f_equal. rewrite R. unfold buf. now rewrite !sapp_assoc.
Qed.
Theorem C101_static_vector name v n f (t : nat -> string) : is_vector v n f -> 0 < n -> (forall i, i < n -> sci (f i) 23 15 = Ok (t i)) ->
  vec_to_static_array V finite show show_e name v = Ok (
    "// " ++ name ++ ": dim = " ++ usz n ++ nl ++
    "#[rustfmt::skip]" ++ nl ++
    "const " ++ name ++ ": [f64; " ++ usz n ++ "] = [" ++ nl ++
    "    " ++ joined "" n (fun i => t i ++ ",") ++ nl ++ "];" ++ nl).
Proof.
  intros HV Hn T. unfold vec_to_static_array. rewrite (proj1 HV). cbv zeta.
  match goal with |- context [for_range 0 n _ ?b] => set (buf := b) end.
  rewrite (loop_app n (fun i => (if 0 <? i then "," else "") ++ t i)).
  - cbn [bind]. f_equal. rewrite <- (sapp_assoc (buf ++ _)). pose proof (close_join "," "" n t Hn) as K. change ("," ++ "") with "," in K. rewrite (sapp_assoc buf), K. unfold buf. now rewrite !sapp_assoc.
  - intros i b Hi. unfold vget. rewrite (proj2 HV) by auto. cbn [bind]. rewrite T by auto. cbn [bind]. f_equal. destruct (0 <? i); [now rewrite sapp_assoc|reflexivity].
Qed.

(** Matrices without rows or without columns give source code that is not well formed: more brackets are closed
    than opened, as in `a = np.array([]],dtype=float)` for a matrix without rows. *)
Theorem C101_empty_matrix_refuted name a : d_nrow a = 0 \/ d_ncol a = 0 ->
  (count "[" name = count "]" name -> exists s, mat_to_numpy V show name a = Ok s /\ count "[" s < count "]" s) /\
  (count "{" name = count "}" name -> exists s, mat_to_mathematica V show name a = Ok s /\ count "{" s < count "}" s) /\
  (count "[" name = count "]" name -> exists s, mat_to_static_array V finite show show_e name a = Ok s /\ count "[" s < count "]" s).
Proof.
  intros H.
  assert (L : forall (body : nat -> nat -> string -> res string) c buf, exists k, for_range 0 (d_nrow a) (fun i buf => for_range 0 (d_ncol a) (body i) (if 0 <? i then buf ++ c else buf)) buf = Ok (buf ++ joined "" k (fun _ => c))).
  { intros body c buf. destruct H as [H|H]; rewrite H; [exists 0; cbn; now rewrite sapp_nil|].
    destruct (for_range_inv (fun i s => s = buf ++ joined "" (i - 1) (fun _ => c)) (fun i buf => for_range 0 0 (body i) (if 0 <? i then buf ++ c else buf)) 0 (d_nrow a) buf) as (s & E & ->); [lia| | |now exists (d_nrow a - 1)].
    - cbn. now rewrite sapp_nil.
    - intros i s Hi ->. exists (if 0 <? i then (buf ++ joined "" (i - 1) (fun _ => c)) ++ c else buf ++ joined "" (i - 1) (fun _ => c)). split; [reflexivity|].
      destruct (Nat.ltb_spec 0 i); [|now replace i with 0 by lia]. rewrite sapp_assoc. f_equal. replace (S i - 1) with (S (i - 1)) by lia. rewrite joined_S. destruct (Nat.eqb_spec (i - 1) 0) as [->|]; reflexivity. }
  assert (K : forall c k x, count c (joined "" k (fun _ => x)) = k * count c x).
  { intros c k x. induction k as [|k IH]; [reflexivity|]. rewrite joined_S. destruct (Nat.eqb_spec k 0) as [->|]; [lia|]. rewrite !count_app, IH. simpl. lia. }
  splits; intros HN.
  - destruct (L (fun i j buf => val <- d_get a i j ;; Ok ((if j =? 0 then buf ++ "[" else buf ++ ",") ++ show val)) "]," (name ++ " = np.array([")) as (k & E). eexists. split.
    + unfold mat_to_numpy. change (for_range 0 (d_nrow a) _ _) with (for_range 0 (d_nrow a) (fun i buf => for_range 0 (d_ncol a) (fun j buf => val <- d_get a i j ;; Ok ((if j =? 0 then buf ++ "[" else buf ++ ",") ++ show val)) (if 0 <? i then buf ++ "]," else buf)) (name ++ " = np.array([")). rewrite E. reflexivity.
    + rewrite !count_app, !K. simpl. lia.
  - destruct (L (fun i j buf => val <- d_get a i j ;; Ok ((if j =? 0 then buf ++ "{" else buf ++ ",") ++ show val)) "}," (name ++ " = {")) as (k & E). eexists. split.
    + unfold mat_to_mathematica. change (for_range 0 (d_nrow a) _ _) with (for_range 0 (d_nrow a) (fun i buf => for_range 0 (d_ncol a) (fun j buf => val <- d_get a i j ;; Ok ((if j =? 0 then buf ++ "{" else buf ++ ",") ++ show val)) (if 0 <? i then buf ++ "}," else buf)) (name ++ " = {")). rewrite E. reflexivity.
    + rewrite !count_app, !K. simpl. lia.
  - unfold mat_to_static_array. cbv zeta. match goal with |- context [for_range 0 (d_nrow a) _ ?b] => set (buf := b) end.
    destruct (L (fun i j buf => val <- d_get a i j ;; t <- sci val 23 15 ;; Ok ((if j =? 0 then buf ++ "    [" else buf ++ ",") ++ t)) (" ]," ++ nl) buf) as (k & E). eexists. split.
    + change (for_range 0 (d_nrow a) _ _) with (for_range 0 (d_nrow a) (fun i buf => for_range 0 (d_ncol a) (fun j buf => val <- d_get a i j ;; t <- sci val 23 15 ;; Ok ((if j =? 0 then buf ++ "    [" else buf ++ ",") ++ t)) (if 0 <? i then buf ++ " ]," ++ nl else buf)) buf). rewrite E. reflexivity.
    + unfold buf. rewrite !count_app, !K, !count_app, !count_usz by reflexivity. simpl. lia.
Qed.
(** The static array of an empty vector is a lone comma, which is not Rust code. *)
Theorem C101_empty_vector_refuted name : vec_to_static_array V finite show show_e name [] = Ok (
    "// " ++ name ++ ": dim = 0" ++ nl ++ "#[rustfmt::skip]" ++ nl ++ "const " ++ name ++ ": [f64; 0] = [" ++ nl ++ "    ," ++ nl ++ "];" ++ nl).
Proof. unfold vec_to_static_array. cbv zeta. change (usz (@length V [])) with "0". change (for_range 0 (@length V []) _ _) with (@Ok string (((("// " ++ name ++ ": dim = " ++ "0" ++ nl) ++ "#[rustfmt::skip]" ++ nl) ++ "const " ++ name ++ ": [f64; " ++ "0" ++ "] = [" ++ nl) ++ "    ")). cbn [bind]. f_equal. rewrite !sapp_assoc. reflexivity. Qed.

(* ------------------------------------------------------------------ *)
(** * Drawings *)

Definition border (l r : string) (k : nat) : string := l ++ fill " " k ++ r.
Definition box_row (n : nat) (cell : nat -> nat -> string) (i : nat) : string := "│" ++ joined "" n (cell i) ++ " │".
(** a table of m rows and n columns of texts of width w, in a box; all lines have the same number of bytes *)
Definition drawn (m n w : nat) (cell : nat -> nat -> string) (text : string) : Prop :=
  lines text = border "┌" "┐" (w * n + 1) :: app (map (box_row n cell) (seq 0 m)) [border "└" "┘" (w * n + 1)] /\
  (forall l, In l (lines text) -> String.length l = w * n + 7).

Lemma fill_line k : in_line (fill " " k).
Proof. induction k; [reflexivity|exact IHk]. Qed.
Lemma lines_last l : in_line l -> nonempty l = true -> lines l = [l].
Proof.
  assert (G : forall l acc, in_line l -> nonempty (acc ++ l) = true -> lines_aux acc l = [acc ++ l]).
  { clear. induction l as [|c t IH]; intros acc L N; simpl in *; [rewrite sapp_nil in *; now rewrite N|]. unfold in_line in L. simpl in L. apply andb_true_iff in L. destruct L as [Lc Lt]. apply andb_true_iff in Lc. destruct Lc as [Ln _]. apply negb_true_iff in Ln. rewrite Ln.
    rewrite IH; auto; rewrite snoc_app; auto. }
  intros L N. unfold lines. now rewrite G.
Qed.
Lemma joined_line n t : (forall i, i < n -> in_line (t i)) -> in_line (joined "" n t).
Proof. intros H. induction n as [|n IH]; [reflexivity|]. rewrite joined_S. destruct (n =? 0) eqn:E; [apply H; lia|]. apply in_line_app; [apply IH; auto|]. simpl. auto. Qed.
Lemma joined_len n t w : (forall i, i < n -> String.length (t i) = w) -> String.length (joined "" n t) = w * n.
Proof. intros H. induction n as [|n IH]; [simpl; lia|]. rewrite joined_S. destruct (Nat.eqb_spec n 0) as [->|]; [rewrite H; lia|]. rewrite !slen_app, IH, H by auto. simpl. lia. Qed.
Lemma lines_rows_of m (r : nat -> string) s : (forall i, i < m -> in_line (r i)) -> lines (joined "" m (fun i => r i ++ nl) ++ s) = (map r (seq 0 m) ++ lines s)%list.
Proof.
  revert s. induction m as [|m IH]; intros s H; [reflexivity|]. rewrite joined_S, seq_S, map_app. destruct (Nat.eqb_spec m 0) as [->|].
  - simpl map. cbn [app]. rewrite sapp_assoc, lines_cons by (apply H; lia). reflexivity.
  - rewrite !sapp_assoc. cbn [append]. rewrite IH by auto. rewrite lines_cons by (apply H; lia). rewrite <- app_assoc. reflexivity.
Qed.
Lemma drawn_text m n w cell : (forall i j, i < m -> j < n -> in_line (cell i j) /\ String.length (cell i j) = w) ->
  drawn m n w cell ("┌" ++ fill " " (w * n + 1) ++ "┐" ++ nl ++ joined "" m (fun i => "│" ++ joined "" n (cell i) ++ " │" ++ nl) ++ "└" ++ fill " " (w * n + 1) ++ "┘").
Proof.
  intros H. assert (F : forall a b, in_line a -> in_line b -> in_line (a ++ fill " " (w * n + 1) ++ b)) by (intros; repeat apply in_line_app; auto using fill_line).
  assert (E : lines ("┌" ++ fill " " (w * n + 1) ++ "┐" ++ nl ++ joined "" m (fun i => "│" ++ joined "" n (cell i) ++ " │" ++ nl) ++ "└" ++ fill " " (w * n + 1) ++ "┘")
    = border "┌" "┐" (w * n + 1) :: app (map (box_row n cell) (seq 0 m)) [border "└" "┘" (w * n + 1)]).
  { rewrite <- (sapp_assoc (fill _ _) "┐"), <- (sapp_assoc "┌"). rewrite lines_cons by (apply F; reflexivity). f_equal.
    rewrite (joined_ext "" m _ (fun i => box_row n cell i ++ nl)) by (intros; unfold box_row; now rewrite !sapp_assoc).
    rewrite lines_rows_of.
    - f_equal. apply lines_last; [apply F; reflexivity|reflexivity].
    - intros i Hi. unfold box_row. repeat apply in_line_app; try reflexivity. apply joined_line. intros j Hj. now apply H. }
  split; [exact E|]. intros l. rewrite E. simpl In. rewrite in_app_iff. intros [<-|[I|[<-|[]]]].
  - unfold border. cbn [append String.length]. rewrite slen_app, fill_len. simpl. lia.
  - apply in_map_iff in I. destruct I as (i & <- & Hi). apply in_seq in Hi. unfold box_row. cbn [append String.length]. rewrite slen_app, (joined_len n (cell i) w) by (intros; apply H; lia). simpl. lia.
  - unfold border. cbn [append String.length]. rewrite slen_app, fill_len. simpl. lia.
Qed.
(** fields that start with a space can be told apart *)
Lemma split_spaces k s : split_ws (fill " " k ++ s) = split_ws s.
Proof. induction k; [reflexivity|]. exact IHk. Qed.
Lemma split_fields (l : list (nat * string)) w0 : word w0 -> (forall p, In p l -> word (snd p)) ->
  split_ws (w0 ++ String.concat "" (map (fun p => fill " " (S (fst p)) ++ snd p) l) ++ " │") = w0 :: app (map snd l) ["│"].
Proof.
  revert w0. induction l as [|[k x] l IH]; intros w0 W H.
  - simpl. rewrite split_word by auto. reflexivity.
  - assert (E : String.concat "" (map (fun p => fill " " (S (fst p)) ++ snd p) ((k, x) :: l)) = fill " " (S k) ++ x ++ String.concat "" (map (fun p => fill " " (S (fst p)) ++ snd p) l)).
    { rewrite map_cons. generalize (map (fun p => fill " " (S (fst p)) ++ snd p) l). intros q. cbn [fst snd]. generalize (fill " " (S k)). intros r. destruct q; cbn [String.concat]; [now rewrite sapp_nil|]. rewrite !sapp_assoc. reflexivity. }
    rewrite E. cbn [fill append]. rewrite split_word by auto. rewrite !sapp_assoc, split_spaces. rewrite IH; [reflexivity|apply (H (k, x)); now left|intros p Hp; apply H; now right].
Qed.
Lemma split_row n w (t : nat -> string) : (forall j, j < n -> word (t j) /\ String.length (t j) < w) ->
  split_ws ("│" ++ joined "" n (fun j => pad " " w (t j)) ++ " │") = "│" :: app (map t (seq 0 n)) ["│"].
Proof.
  intros H. replace (joined "" n (fun j => pad " " w (t j))) with (String.concat "" (map (fun p => fill " " (S (fst p)) ++ snd p) (map (fun j => (w - String.length (t j) - 1, t j)) (seq 0 n)))).
  - rewrite split_fields.
    + now rewrite map_map.
    + now split.
    + intros p Hp. apply in_map_iff in Hp. destruct Hp as (j & <- & Hj). apply in_seq in Hj. apply H. lia.
  - unfold joined. rewrite map_map. f_equal. apply map_ext_in. intros j Hj. apply in_seq in Hj. simpl fst. simpl snd. unfold pad. f_equal. f_equal. destruct (H j ltac:(lia)). lia.
Qed.
Lemma pad_line w s : in_line s -> in_line (pad " " w s).
Proof. intros H. apply in_line_app; auto using fill_line. Qed.

(** Display of a matrix: the entries in a box, right-justified in columns just wide enough, and readable *)
Theorem C101_mat_display a m n f p : is_matrix a m n f -> 0 < m -> 0 < n ->
  let t i j := match p with Some k => show_p k (f i j) | None => show (f i j) end in
  (forall i j, i < m -> j < n -> word (t i j)) ->
  exists text w cell, mat_display V show show_p a p = Ok text /\ drawn m n w cell text /\
    (forall i j, i < m -> j < n -> right_justified w (t i j) (cell i j) /\ String.length (t i j) < w) /\
    (exists i j, i < m /\ j < n /\ w = String.length (t i j) + 1) /\
    (forall i, i < m -> split_ws (box_row n cell i) = "│" :: app (map (t i) (seq 0 n)) ["│"]).
Proof.
  intros HA Hm Hn t HT. pose proof HA as (A1 & A2 & _ & A4). unfold mat_display. rewrite A1, A2. rewrite (proj2 (Nat.eqb_neq m 0)), (proj2 (Nat.eqb_neq n 0)) by lia. cbn [orb].
  assert (W : exists w, for_range 0 m (fun i width => for_range 0 n (fun j width => x <- d_get a i j ;; Ok (Nat.max (String.length (text_of V show show_p p x)) width)) width) 0 = Ok w /\
    (forall i j, i < m -> j < n -> String.length (t i j) <= w) /\ (exists i j, i < m /\ j < n /\ w = String.length (t i j))).
  { destruct (for_range_inv (fun i w => (forall k j, k < i -> j < n -> String.length (t k j) <= w) /\ (i = 0 /\ w = 0 \/ exists k j, k < m /\ j < n /\ w = String.length (t k j)))
      (fun i width => for_range 0 n (fun j width => x <- d_get a i j ;; Ok (Nat.max (String.length (text_of V show show_p p x)) width)) width) 0 m 0) as (w & E & I1 & I2); [lia|split; [lia|auto]| |].
    - intros i w Hi (I1 & I2).
      destruct (for_range_inv (fun j w => (forall k j', k < i -> j' < n -> String.length (t k j') <= w) /\ (forall j', j' < j -> String.length (t i j') <= w) /\ (i = 0 /\ j = 0 /\ w = 0 \/ exists k j, k < m /\ j < n /\ w = String.length (t k j)))
        (fun j width => x <- d_get a i j ;; Ok (Nat.max (String.length (text_of V show show_p p x)) width)) 0 n w) as (w' & E & J1 & J2 & J3); [lia|splits; auto; [lia|destruct I2 as [(-> & ->)|]; auto]| |].
      + intros j u Hj (J1 & J2 & J3). rewrite A4 by lia. cbn [bind]. change (text_of V show show_p p (f i j)) with (t i j). eexists. split; [reflexivity|]. splits.
        * intros k j' Hk Hj'. specialize (J1 k j' Hk Hj'). lia.
        * intros j' Hj'. destruct (Nat.eq_dec j' j) as [->|]; [lia|]. specialize (J2 j' ltac:(lia)). lia.
        * right. destruct (Nat.max_spec (String.length (t i j)) u) as [[Q ->]|[Q ->]]; [|exists i, j; splits; auto; lia]. destruct J3 as [(-> & -> & ->)|J3]; [lia|exact J3].
      + exists w'. split; [exact E|]. split.
        * intros k j Hk Hj. destruct (Nat.eq_dec k i) as [->|]; auto. apply J1; lia.
        * destruct J3 as [(_ & Q & _)|J3]; [lia|auto].
    - exists w. splits; auto. destruct I2 as [(Q & _)|I2]; [lia|exact I2]. }
  destruct W as (w & EW & W1 & W2). rewrite EW. cbn [bind].
  destruct (table "│" "" (" │" ++ nl) "" (fun i j => pad " " (w + 1) (t i j)) (fun i j f => x <- d_get a i j ;; Ok ((if j =? 0 then f ++ "│" else f) ++ pad " " (w + 1) (text_of V show show_p p x))) m n ("┌" ++ fill " " ((w + 1) * n + 1) ++ "┐" ++ nl) Hm Hn) as (r & E & R).
  { intros i j b Hi Hj. rewrite A4 by auto. cbn [bind]. now rewrite sapp_nil. }
  exists ("┌" ++ fill " " ((w + 1) * n + 1) ++ "┐" ++ nl ++ joined "" m (fun i => "│" ++ joined "" n (fun j => pad " " (w + 1) (t i j)) ++ " │" ++ nl) ++ "└" ++ fill " " ((w + 1) * n + 1) ++ "┘"), (w + 1), (fun i j => pad " " (w + 1) (t i j)). splits.
  - change (for_range 0 m _ _) with (for_range 0 m (fun i f => for_range 0 n (fun j f => x <- d_get a i j ;; Ok ((if j =? 0 then f ++ "│" else f) ++ pad " " (w + 1) (text_of V show show_p p x))) (if 0 <? i then f ++ ((" │" ++ nl) ++ "") else f)) ("┌" ++ fill " " ((w + 1) * n + 1) ++ "┐" ++ nl)).
    rewrite E. cbn [bind]. f_equal. rewrite R. now rewrite !sapp_assoc.
  - apply drawn_text. intros i j Hi Hj. split; [apply pad_line, word_in_line; auto|]. rewrite pad_len. specialize (W1 i j Hi Hj). lia.
  - intros i j Hi Hj. split; [apply pad_right|]. specialize (W1 i j Hi Hj). lia.
  - destruct W2 as (i & j & Hi & Hj & ->). exists i, j. auto.
  - intros i Hi. apply split_row. intros j Hj. split; auto. specialize (W1 i j Hi Hj). lia.
Qed.

Lemma max_loop1 n (g : nat -> nat) (body : nat -> nat -> res nat) : 0 < n -> (forall i w, i < n -> body i w = Ok (Nat.max (g i) w)) ->
  exists w, for_range 0 n body 0 = Ok w /\ (forall i, i < n -> g i <= w) /\ exists i, i < n /\ w = g i.
Proof.
  intros Hn B. destruct (for_range_inv (fun i w => (forall k, k < i -> g k <= w) /\ (i = 0 /\ w = 0 \/ exists k, k < n /\ w = g k)) body 0 n 0) as (w & E & I1 & I2); [lia|split; [lia|auto]| |].
  - intros i w Hi (I1 & I2). rewrite B by lia. eexists. split; [reflexivity|]. split.
    + intros k Hk. destruct (Nat.eq_dec k i) as [->|]; [lia|]. specialize (I1 k ltac:(lia)). lia.
    + right. destruct (Nat.max_spec (g i) w) as [[Q ->]|[Q ->]]; [|exists i; split; auto; lia]. destruct I2 as [(-> & ->)|I2]; [lia|exact I2].
  - exists w. splits; auto. destruct I2 as [(Q & _)|I2]; [lia|exact I2].
Qed.
Lemma vec_drawing n w (g : nat -> string) (body : nat -> string -> res string) : 0 < n -> (forall i, i < n -> in_line (g i) /\ String.length (g i) = w) ->
  (forall i f, i < n -> body i f = Ok (((if 0 <? i then f ++ " │" ++ nl else f) ++ "│") ++ g i)) ->
  exists text, (f <- for_range 0 n body ("┌" ++ fill " " (w + 1) ++ "┐" ++ nl) ;; Ok ((f ++ " │" ++ nl) ++ "└" ++ fill " " (w + 1) ++ "┘")) = Ok text /\ drawn n 1 w (fun i _ => g i) text.
Proof.
  intros Hn G B. rewrite (loop_app n (fun i => (if 0 <? i then (" │" ++ nl) ++ "" else "") ++ "│" ++ g i)).
  - cbn [bind]. eexists. split; [reflexivity|]. pose proof (drawn_text n 1 w (fun i _ => g i)) as D. rewrite Nat.mul_1_r in D.
    match goal with |- drawn _ _ _ _ (((?A ++ ?J) ++ ?C) ++ ?T) => replace (((A ++ J) ++ C) ++ T) with (A ++ (J ++ C) ++ T) by (now rewrite !sapp_assoc) end.
    rewrite (close_join (" │" ++ nl) "" n (fun i => "│" ++ g i) Hn).
    rewrite (joined_ext "" n _ (fun i => "│" ++ joined "" 1 (fun _ => g i) ++ " │" ++ nl)) by (intros; now rewrite sapp_assoc).
    rewrite !sapp_assoc. apply D. intros i j Hi _. now apply G.
  - intros i b Hi. rewrite B by auto. f_equal. destruct (0 <? i); now rewrite !sapp_assoc.
Qed.
Theorem C101_vec_display u n f p : is_vector u n f -> 0 < n ->
  let t i := match p with Some k => show_p k (f i) | None => show (f i) end in
  (forall i, i < n -> word (t i)) ->
  exists text w cell, vec_display V show show_p u p = Ok text /\ drawn n 1 w (fun i _ => cell i) text /\
    (forall i, i < n -> right_justified w (t i) (cell i) /\ String.length (t i) < w) /\
    (exists i, i < n /\ w = String.length (t i) + 1) /\
    (forall i, i < n -> split_ws (box_row 1 (fun i _ => cell i) i) = ["│"; t i; "│"]).
Proof.
  intros HV Hn t HT. unfold vec_display. rewrite (proj1 HV), (proj2 (Nat.eqb_neq n 0)) by lia.
  destruct (max_loop1 n (fun i => String.length (t i)) (fun i width => x <- vget u i ;; Ok (Nat.max (String.length (text_of V show show_p p x)) width)) Hn) as (w & E & W1 & W2).
  { intros i w Hi. unfold vget. now rewrite (proj2 HV) by auto. }
  rewrite E. cbn [bind].
  destruct (vec_drawing n (w + 1) (fun i => pad " " (w + 1) (t i)) (fun i f => x <- vget u i ;; Ok (((if 0 <? i then f ++ " │" ++ nl else f) ++ "│") ++ pad " " (w + 1) (text_of V show show_p p x))) Hn) as (text & ET & D).
  { intros i Hi. split; [apply pad_line, word_in_line; auto|]. rewrite pad_len. specialize (W1 i Hi). simpl in W1. lia. }
  { intros i b Hi. unfold vget. now rewrite (proj2 HV) by auto. }
  exists text, (w + 1), (fun i => pad " " (w + 1) (t i)). splits; auto.
  - intros i Hi. split; [apply pad_right|]. specialize (W1 i Hi). simpl in W1. lia.
  - destruct W2 as (i & Hi & ->). exists i. auto.
  - intros i Hi. apply (split_row 1 (w + 1) (fun _ => t i)). intros _ _. split; auto. specialize (W1 i Hi). simpl in W1. lia.
Qed.
(** vec_fmt_scientific: a box of aligned numbers, also with exponents of three digits *)
Theorem C101_fmt_scientific u n f p mant neg digs : is_vector u n f -> 0 < n ->
  (forall i, i < n -> finite (f i) = true /\ exponential (show_e p (f i)) (mant i) (neg i) (digs i) /\ String.length (digs i) <= 3) ->
  exists text w cell, vec_fmt_scientific V finite show show_e u p = Ok text /\ drawn n 1 w (fun i _ => cell i) text /\
    (forall i, i < n -> right_justified w (fortran (mant i) (neg i) (digs i)) (cell i) /\ String.length (fortran (mant i) (neg i) (digs i)) <= w) /\
    (exists i, i < n /\ w = String.length (mant i) + 5).
Proof.
  intros HV Hn H. unfold vec_fmt_scientific. rewrite (proj1 HV), (proj2 (Nat.eqb_neq n 0)) by lia.
  destruct (max_loop1 n (fun i => String.length (mant i)) (fun i width => x <- vget u i ;; ' q <- unwrap_o (split_e (show_e p x)) ;; Ok (Nat.max (String.length (fst q)) width)) Hn) as (w & E & W1 & W2).
  { intros i w Hi. unfold vget. rewrite (proj2 HV) by auto. cbn [bind]. destruct (H i Hi) as (_ & (-> & Q & _) & _). cbn [append]. rewrite split_e_ok by auto. reflexivity. }
  rewrite E. cbn [bind]. replace (w + 4 + 1) with (w + 5) by lia.
  assert (F : forall i, i < n -> String.length (fortran (mant i) (neg i) (digs i)) <= w + 5).
  { intros i Hi. unfold fortran. rewrite !slen_app. specialize (W1 i Hi). destruct (H i Hi) as (_ & _ & Q). simpl String.length at 2. destruct (neg i); simpl String.length at 2; destruct (Nat.eqb_spec (String.length (digs i)) 1); simpl String.length at 2; lia. }
  assert (S : forall i, i < n -> sci (f i) (w + 5) p = Ok (pad " " (w + 5) (fortran (mant i) (neg i) (digs i)))).
  { intros i Hi. destruct (H i Hi) as (Fi & Ei & _). destruct (proj1 (C101_format_scientific (f i) (w + 5) p) Fi _ _ _ Ei) as (s & Es & (k & K) & L). rewrite Es. f_equal. rewrite K in L |- *. rewrite slen_app, fill_len in L. unfold pad. f_equal. f_equal. specialize (F i Hi). lia. }
  destruct (vec_drawing n (w + 5) (fun i => pad " " (w + 5) (fortran (mant i) (neg i) (digs i))) (fun i f => x <- vget u i ;; t <- sci x (w + 5) p ;; Ok (((if 0 <? i then f ++ " │" ++ nl else f) ++ "│") ++ t)) Hn) as (text & ET & D).
  { intros i Hi. split; [|rewrite pad_len; specialize (F i Hi); lia]. apply pad_line. destruct (H i Hi) as (_ & (_ & _ & M & _ & Di) & _). unfold fortran. repeat apply in_line_app.
    - now apply word_in_line.
    - reflexivity.
    - now destruct (neg i).
    - now destruct (String.length (digs i) =? 1).
    - revert Di. induction (digs i) as [|c t IH]; [reflexivity|]. unfold in_line in *. simpl. intros Q. apply andb_true_iff in Q. destruct Q as [Qc Qt]. rewrite IH by auto. rewrite andb_true_r.
      destruct (Ascii.eqb_spec c newline) as [->|]; [discriminate Qc|]. destruct (Ascii.eqb_spec c cr) as [->|]; [discriminate Qc|reflexivity]. }
  { intros i b Hi. unfold vget. rewrite (proj2 HV) by auto. cbn [bind]. now rewrite S by auto. }
  exists text, (w + 5), (fun i => pad " " (w + 5) (fortran (mant i) (neg i) (digs i))). splits; auto.
  - intros i Hi. split; [apply pad_right|auto].
  - destruct W2 as (i & Hi & ->). exists i. auto.
Qed.
(** vec_fmt_scientific panics when the vector contains a number that is not finite, whose text (NaN, inf, -inf)
    does not contain the letter e; format_scientific itself accepts such numbers. *)
Theorem C101_fmt_scientific_nan_refuted u p x : In x u -> sall (fun c => negb (Ascii.eqb c "e")) (show_e p x) = true ->
  vec_fmt_scientific V finite show show_e u p = Panic.
Proof.
  intros Hx E. destruct (In_nth_error u x Hx) as (i & Hi). assert (Li : i < length u) by (apply nth_error_Some; congruence).
  unfold vec_fmt_scientific. rewrite (proj2 (Nat.eqb_neq (length u) 0)) by lia.
  assert (P : forall n lo w, lo <= i < lo + n -> for_n n lo (fun i width => x <- vget u i ;; ' q <- unwrap_o (split_e (show_e p x)) ;; Ok (Nat.max (String.length (fst q)) width)) w = Panic).
  { induction n as [|n IH]; intros lo w Hl; [lia|]. cbn [for_n]. destruct (Nat.eq_dec lo i) as [->|].
    - unfold vget. rewrite Hi. cbn [bind]. now rewrite split_e_none.
    - unfold vget. destruct (nth_error u lo) as [y|] eqn:Ey; cbn [bind]; auto. destruct (split_e (show_e p y)); cbn [unwrap_o bind]; auto. apply IH. lia. }
  unfold for_range. rewrite P by lia. reflexivity.
Qed.
(** empty vectors and matrices *)
Theorem C101_empty_display (u : list V) (a : dmat V) p k : (u = [] -> vec_display V show show_p u p = Ok "[]" /\ vec_fmt_scientific V finite show show_e u k = Ok "[]") /\
  (d_nrow a = 0 \/ d_ncol a = 0 -> mat_display V show show_p a p = Ok "[]").
Proof. split; [intros ->; now split|]. intros H. unfold mat_display. destruct H as [-> | ->]; [reflexivity|]. now rewrite orb_true_r. Qed.
End Numbers.

(* ------------------------------------------------------------------ *)
(** * VisMatrix files *)
Definition row_major (p q : nat * nat) : Prop := fst p < fst q \/ fst p = fst q /\ snd p < snd q.
Lemma sorted_snoc {A} (r : A -> A -> Prop) l x : Sorted.StronglySorted r l -> (forall y, In y l -> r y x) -> Sorted.StronglySorted r (app l [x]).
Proof.
  induction l as [|a l IH]; intros S H; [repeat constructor|]. inversion S as [|? ? S' F]; subst. simpl. constructor; [apply IH; auto; intros; apply H; now right|].
  apply Forall_app. split; auto. constructor; auto. apply H. now left.
Qed.
(** the file: the sizes and the number of entries, then row by row the entries larger than the tolerance, each
    once, with its indices from zero and its value *)
Theorem C101_vismatrix debug a m n f tol : is_matrix a m n f -> (forall x, word (debug x)) ->
  ((tol < 0)%R -> exists e, vismatrix_text debug a tol = Err e) /\
  ((0 <= tol)%R -> exists text es, vismatrix_text debug a tol = Ok text /\ Sorted.StronglySorted row_major es /\
     (forall i j, In (i, j) es <-> i < m /\ j < n /\ (tol < Rabs (f i j))%R) /\
     map split_ws (lines text) = [usz m; usz n; usz (length es)] :: map (fun p => [usz (fst p); usz (snd p); debug (f (fst p) (snd p))]) es).
Proof.
  intros HA HD. pose proof HA as (A1 & A2 & _ & A4). unfold vismatrix_text. rewrite A1, A2. split; intros Ht.
  - destruct (Rltb_spec tol 0); [eauto|lra].
  - destruct (Rltb_spec tol 0) as [|_]; [lra|].
    set (ln := fun p : nat * nat => usz (fst p) ++ " " ++ usz (snd p) ++ " " ++ debug (f (fst p) (snd p))).
    set (Inv := fun (seen : nat -> nat -> Prop) (s : nat * string) => exists es, fst s = length es /\ snd s = String.concat "" (map (fun p => ln p ++ nl) es) /\ Sorted.StronglySorted row_major es /\ forall i j, In (i, j) es <-> seen i j /\ i < m /\ j < n /\ (tol < Rabs (f i j))%R).
    assert (IE : forall p q s, (forall i j, i < m -> j < n -> p i j <-> q i j) -> Inv p s -> Inv q s).
    { intros p q s E (es & I1 & I2 & I3 & I4). exists es. splits; auto. intros i j. rewrite I4. split; intros (S & Hi & Hj & R); (split; [apply (E i j Hi Hj); exact S|auto]). }
    destruct (for_range_inv (fun i s => Inv (fun k l => k < i) s) (fun i s => for_range 0 n (fun j '(nnz, buffer) => value <- d_get a i j ;; if Rltb tol (Rabs value) then Ok (nnz + 1, buffer ++ usz i ++ " " ++ usz j ++ " " ++ debug value ++ nl) else Ok (nnz, buffer)) s) 0 m (0, "")) as ([nnz buffer] & E & I); [lia| | |].
    + exists []. splits; auto; [constructor|]. intros i j. simpl. lia.
    + intros i s Hi I.
      destruct (for_range_inv (fun j s => Inv (fun k l => k < i \/ k = i /\ l < j) s) (fun j '(nnz, buffer) => value <- d_get a i j ;; if Rltb tol (Rabs value) then Ok (nnz + 1, buffer ++ usz i ++ " " ++ usz j ++ " " ++ debug value ++ nl) else Ok (nnz, buffer)) 0 n s) as (s' & E & I'); [lia| | |].
      * revert I. apply IE. intros; lia.
      * intros j [nz b] Hj (es & I1 & I2 & I3 & I4). simpl in I1, I2. rewrite A4 by lia. cbn [bind]. destruct (Rltb_spec tol (Rabs (f i j))) as [L|L]; eexists; (split; [reflexivity|]).
        -- exists (app es [(i, j)]). simpl. rewrite map_app, app_length. splits.
           ++ simpl. lia.
           ++ rewrite I2. simpl map. rewrite concat_snoc. replace (ln (i, j) ++ nl) with (usz i ++ " " ++ usz j ++ " " ++ debug (f i j) ++ nl) by (unfold ln; simpl fst; simpl snd; now rewrite !sapp_assoc). destruct (map (fun p => ln p ++ nl) es); reflexivity.
           ++ apply sorted_snoc; auto. intros [k l] Hy. apply I4 in Hy. unfold row_major. simpl. lia.
           ++ intros k l. rewrite in_app_iff, I4. simpl. split.
              ** intros [(S & K)|[Q|[]]]; [split; [lia|tauto]|]. injection Q as <- <-. splits; auto; lia.
              ** intros (S & Hk & Hl & R). destruct (Nat.eq_dec k i) as [->|]; [|left; splits; auto; lia]. destruct (Nat.eq_dec l j) as [->|]; [auto|left; splits; auto; lia].
        -- exists es. splits; auto. intros k l. rewrite I4. split; intros (S & Hk & Hl & R); splits; auto; [lia|]. destruct (Nat.eq_dec k i) as [->|]; [|lia]. destruct (Nat.eq_dec l j) as [->|]; [lra|lia].
      * exists s'. split; [exact E|]. revert I'. apply IE. intros; lia.
    + rewrite E. cbn [bind]. destruct I as (es & I1 & I2 & I3 & I4). simpl in I1, I2. subst nnz buffer. eexists. exists es. splits; [reflexivity|exact I3| |].
      * intros i j. rewrite I4. split; [tauto|intros K; splits; tauto].
      * assert (LL : forall p, in_line (ln p)) by (intros p; unfold ln; repeat apply in_line_app; try reflexivity; apply word_in_line; auto using usz_word).
        replace ((usz m ++ " " ++ usz n ++ " " ++ usz (length es) ++ nl) ++ String.concat "" (map (fun p => ln p ++ nl) es)) with ((usz m ++ " " ++ usz n ++ " " ++ usz (length es)) ++ nl ++ String.concat "" (map (fun p => ln p ++ nl) es)) by (now rewrite !sapp_assoc).
        rewrite lines_cons by (repeat apply in_line_app; try reflexivity; apply word_in_line, usz_word).
        assert (S3 : forall a b c, word a -> word b -> word c -> split_ws (a ++ " " ++ b ++ " " ++ c) = [a; b; c]) by (intros; cbn [append]; rewrite !split_word, split_last; auto).
        rewrite map_cons, S3 by apply usz_word. f_equal. clear - LL S3 HD. induction es as [|p es IH]; [reflexivity|].
        assert (C : String.concat "" (map (fun p => ln p ++ nl) (p :: es)) = ln p ++ nl ++ String.concat "" (map (fun p => ln p ++ nl) es)).
        { rewrite map_cons. generalize (map (fun p => ln p ++ nl) es). intros q. destruct q; cbn [String.concat]; rewrite ?sapp_nil, ?sapp_assoc; reflexivity. }
        rewrite C, lines_cons by apply LL. simpl map. rewrite IH. f_equal. apply S3; auto using usz_word.
Qed.

(* ------------------------------------------------------------------ *)
(** * Non-vacuity *)
(** 3723000 is 3.723e6 in the notation of the standard library *)
Example ex_exponential : exponential "3.723e6" "3.723" false "6" /\ fortran "3.723" false "6" = "3.723E+06".
Proof. unfold exponential, word. splits; reflexivity. Qed.
Example ex_scientific : format_scientific unit (fun _ => true) (fun _ => "3723000") (fun _ _ => "3.723e6") tt 10 3 = Ok " 3.723E+06" /\
  format_scientific unit (fun _ => true) (fun _ => "") (fun _ _ => "-1.5e-101") tt 3 1 = Ok "-1.5E-101" /\
  format_scientific unit (fun _ => false) (fun _ => "NaN") (fun _ _ => "NaN") tt 5 1 = Ok "  NaN".
Proof. splits; reflexivity. Qed.
Definition shown (n : nat) : string := match n with 0 => "1" | 1 => "2" | 2 => "-3" | _ => "4" end.
Example ex_numpy : mat_to_numpy nat shown "a" (mkD 2 2 [0; 2; 1; 3]) = Ok "a = np.array([[1,2],[-3,4]],dtype=float)" /\
  mat_to_numpy nat shown "a" (mkD 0 2 []) = Ok "a = np.array([]],dtype=float)".
Proof. split; reflexivity. Qed.
Example ex_display : mat_display nat shown (fun _ => shown) (mkD 2 2 [0; 2; 1; 3]) None = Ok (
  "┌       ┐" ++ nl ++
  "│  1  2 │" ++ nl ++
  "│ -3  4 │" ++ nl ++
  "└       ┘").
Proof. reflexivity. Qed.
Example ex_fmt_scientific : vec_fmt_scientific nat (fun _ => true) shown (fun _ n => if n =? 0 then "1.012e0" else "2.000e2") [0; 1] 3 = Ok (
  "┌           ┐" ++ nl ++
  "│ 1.012E+00 │" ++ nl ++
  "│ 2.000E+02 │" ++ nl ++
  "└           ┘") /\ vec_fmt_scientific nat (fun n => n =? 0) shown (fun _ n => if n =? 0 then "1.012e0" else "NaN") [0; 1] 3 = Panic.
Proof. split; reflexivity. Qed.
Print Assumptions C101_format_scientific.
Print Assumptions C101_width.
Print Assumptions C101_write_number.
Print Assumptions C101_numpy.
Print Assumptions C101_mathematica.
Print Assumptions C101_static_matrix.
Print Assumptions C101_static_vector.
Print Assumptions C101_empty_matrix_refuted.
Print Assumptions C101_empty_vector_refuted.
Print Assumptions C101_mat_display.
Print Assumptions C101_vec_display.
Print Assumptions C101_fmt_scientific.
Print Assumptions C101_fmt_scientific_nan_refuted.
Print Assumptions C101_empty_display.
Print Assumptions C101_vismatrix.
