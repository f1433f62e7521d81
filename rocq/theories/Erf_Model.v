(** The error functions: russell_lab/src/math/erf.rs and erf_inv.rs, with their coefficients. A f64 argument is NaN, an infinity
    or a real number ([xr] of Bessel_Model); finite arithmetic is exact. *)
From Coq Require Import List Bool Reals Lra.
From Verif Require Import Base RBase Bessel_Model.
Import ListNotations.
Local Open Scope R_scope.

(** the nested products c0 + s * (c1 + s * (c2 + ...)), also those written from the highest coefficient on *)
Definition horner (cs : list R) (s : R) : R := fold_right (fun c a => c + s * a) 0 cs.

Definition ERX : R := 845062911510467529297 / 10 ^ 21.
Definition EFX : R := 128379167095512586316 / 10 ^ 21.
Definition EFX8 : R := 102703333676410069053 / 10 ^ 20.
(** erf.rs:115-177, PP0 to PP4 *)
Definition PP : list R :=
  [128379167095512558561 / 10 ^ 21;
   - (32504210724700149937 / 10 ^ 20);
   - (284817495755985104766 / 10 ^ 22);
   - (577027029648944159157 / 10 ^ 23);
   - (237630166566501626084 / 10 ^ 25)].
(** 1 and QQ1 to QQ5 *)
Definition QQ : list R :=
  [1;
   397917223959155352819 / 10 ^ 21;
   650222499887672944485 / 10 ^ 22;
   508130628187576562776 / 10 ^ 23;
   132494738004321644526 / 10 ^ 24;
   - (39602282787753681232 / 10 ^ 25)].
(** PA0 to PA6 *)
Definition PA : list R :=
  [- (236211856075265944077 / 10 ^ 23);
   414856118683748331666 / 10 ^ 21;
   - (372207876035701323847 / 10 ^ 21);
   318346619901161753674 / 10 ^ 21;
   - (110894694282396677476 / 10 ^ 21);
   354783043256182359371 / 10 ^ 22;
   - (2166375594868790843 / 10 ^ 21)].
(** 1 and QA1 to QA6 *)
Definition QA : list R :=
  [1;
   106420880400844228286 / 10 ^ 21;
   540397917702171048937 / 10 ^ 21;
   718286544141962662868 / 10 ^ 22;
   126171219808761642112 / 10 ^ 21;
   136370839120290507362 / 10 ^ 22;
   11984499846799107417 / 10 ^ 21].
(** RA0 to RA7 *)
Definition RA : list R :=
  [- (986494403484714822705 / 10 ^ 23);
   - (693858572707181764372 / 10 ^ 21);
   - (105586262253232909814 / 10 ^ 19);
   - (623753324503260060396 / 10 ^ 19);
   - (162396669462573470355 / 10 ^ 18);
   - (184605092906711035994 / 10 ^ 18);
   - (812874355063065934246 / 10 ^ 19);
   - (981432934416914548592 / 10 ^ 20)].
(** 1 and SA1 to SA8 *)
Definition SA : list R :=
  [1;
   196512716674392571292 / 10 ^ 19;
   1376577541435190426 / 10 ^ 16;
   434565877475229228821 / 10 ^ 18;
   645387271733267880336 / 10 ^ 18;
   429008140027567833386 / 10 ^ 18;
   108635005541779435134 / 10 ^ 18;
   657024977031928170135 / 10 ^ 20;
   - (604244152148580987438 / 10 ^ 22)].
(** RB0 to RB6 *)
Definition RB : list R :=
  [- (986494292470009928597 / 10 ^ 23);
   - (799283237680523006574 / 10 ^ 21);
   - (177579549177547519889 / 10 ^ 19);
   - (160636384855821916062 / 10 ^ 18);
   - (637566443368389627722 / 10 ^ 18);
   - (102509513161107724954 / 10 ^ 17);
   - (483519191608651397019 / 10 ^ 18)].
(** 1 and SB1 to SB7 *)
Definition SB : list R :=
  [1;
   303380607434824582924 / 10 ^ 19;
   325792512996573918826 / 10 ^ 18;
   153672958608443695994 / 10 ^ 17;
   319985821950859553908 / 10 ^ 17;
   255305040643316442583 / 10 ^ 17;
   474528541206955367215 / 10 ^ 18;
   - (224409524465858183362 / 10 ^ 19)].
(** erf_inv.rs:17-68, A0 to A7 *)
Definition IA : list R :=
  [11975323115670912564578 / 10 ^ 22;
   47072688112383978012285 / 10 ^ 21;
   69706266534389598238465 / 10 ^ 20;
   48548868893843886794648 / 10 ^ 19;
   16235862515167575384252 / 10 ^ 18;
   23782041382114385731252 / 10 ^ 18;
   11819493347062294404278 / 10 ^ 18;
   887094069625455148302 / 10 ^ 18].
(** erf_inv.rs:17-68, B0 to B7 *)
Definition IB : list R :=
  [1;
   42313330701600911252 / 10 ^ 18;
   6871870074920579083 / 10 ^ 16;
   53941960214247511077 / 10 ^ 16;
   21213794301586595867 / 10 ^ 15;
   3930789580009271061 / 10 ^ 14;
   28729085735721942674 / 10 ^ 15;
   5226495278852854561 / 10 ^ 15].
(** erf_inv.rs:17-68, C0 to C7 *)
Definition IC : list R :=
  [142343711074968357734 / 10 ^ 20;
   46303378461565452959 / 10 ^ 19;
   57694972214606914055 / 10 ^ 19;
   364784832476320460504 / 10 ^ 20;
   127045825245236838258 / 10 ^ 20;
   24178072517745061177 / 10 ^ 20;
   227238449892691845833 / 10 ^ 22;
   77454501427834140764 / 10 ^ 23].
(** erf_inv.rs:17-68, D0 to D7 *)
Definition ID : list R :=
  [14142135623730950488016887 / 10 ^ 25;
   29036514445419946173133295 / 10 ^ 25;
   23707661626024532365971225 / 10 ^ 25;
   97547832001787427186894837 / 10 ^ 26;
   20945065210512749128288442 / 10 ^ 26;
   21494160384252876777097297 / 10 ^ 27;
   77441459065157709165577218 / 10 ^ 29;
   14859850019840355905497876 / 10 ^ 34].
(** erf_inv.rs:17-68, E0 to E7 *)
Definition IE : list R :=
  [66579046435011037772 / 10 ^ 19;
   54637849111641143699 / 10 ^ 19;
   17848265399172913358 / 10 ^ 19;
   29656057182850489123 / 10 ^ 20;
   26532189526576123093 / 10 ^ 21;
   12426609473880784386 / 10 ^ 22;
   271155556874348757815 / 10 ^ 25;
   201033439929228813265 / 10 ^ 27].
(** erf_inv.rs:17-68, F0 to F7 *)
Definition IF : list R :=
  [1414213562373095048801689 / 10 ^ 24;
   8482908416595164588112026 / 10 ^ 25;
   1936480946950659106176712 / 10 ^ 25;
   2103693768272068968719679 / 10 ^ 26;
   1112800997078859844711555 / 10 ^ 27;
   261108840508059362513802 / 10 ^ 28;
   2010321207683943062279931 / 10 ^ 31;
   2891024605872965461538222 / 10 ^ 39].

(** erf.rs:180-188 *)
Definition very_tiny : R := 2848094538889218 / 10 ^ 321.
Definition tiny : R := / 2 ^ 56.
Definition small : R := / 2 ^ 28.

Section Erf.
(** [f64::from_bits(f64::to_bits(x) & 0xffffffff00000000)]: any function (the results do not depend on it) *)
Variable cut : R -> R.

(** erf.rs:277-288 and erf.rs:370-386: r / x beyond 1.25 *)
Definition tail (x : R) : R :=
  let s := 1 / (x * x) in
  let '(rr, ss) := if Rltb x (1 / (35 / 100)) then (horner RA s, horner SA s) else (horner RB s, horner SB s) in
  let z := cut x in
  let r := exp (- z * z - 5625 / 10000) * exp ((z - x) * (z + x) + rr / ss) in
  r / x.

(** erf.rs:221-293 `erf` *)
Definition erf (x : xr) : xr :=
  match x with
  | NaN => NaN
  | Inf false => Fin 1
  | Inf true => Fin (-1)
  | Fin x =>
    let '(x, sign) := if Rltb x 0 then (- x, true) else (x, false) in
    if Rltb x (84375 / 100000) then
      let temp :=
        if Rltb x small then
          if Rltb x very_tiny then 125 / 1000 * (8 * x + EFX8 * x) else x + EFX * x
        else
          let z := x * x in
          let r := horner PP z in
          let s := horner QQ z in
          let y := r / s in
          x + x * y in
      if sign then Fin (- temp) else Fin temp
    else if Rltb x (125 / 100) then
      let s := x - 1 in
      let pp := horner PA s in
      let qq := horner QA s in
      if sign then Fin (- ERX - pp / qq) else Fin (ERX + pp / qq)
    else if Rleb 6 x then if sign then Fin (-1) else Fin 1
    else if sign then Fin (tail x - 1) else Fin (1 - tail x)
  end.

(** erf.rs:321-397 `erfc` *)
Definition erfc (x : xr) : xr :=
  match x with
  | NaN => NaN
  | Inf false => Fin 0
  | Inf true => Fin 2
  | Fin x =>
    let '(x, sign) := if Rltb x 0 then (- x, true) else (x, false) in
    if Rltb x (84375 / 100000) then
      let temp :=
        if Rltb x tiny then x
        else
          let z := x * x in
          let r := horner PP z in
          let s := horner QQ z in
          let y := r / s in
          if Rltb x (25 / 100) then x + x * y else 1 / 2 + (x * y + (x - 1 / 2)) in
      if sign then Fin (1 + temp) else Fin (1 - temp)
    else if Rltb x (125 / 100) then
      let s := x - 1 in
      let pp := horner PA s in
      let qq := horner QA s in
      if sign then Fin (1 + ERX + pp / qq) else Fin (1 - ERX - pp / qq)
    else if Rltb x 28 then
      if negb (Rltb x (1 / (35 / 100))) && sign && Rltb 6 x then Fin 2
      else if sign then Fin (2 - tail x) else Fin (tail x)
    else if sign then Fin 2 else Fin 0
  end.
End Erf.

(** erf_inv.rs:96-143 `erf_inv` *)
Definition erf_inv (x : xr) : xr :=
  match x with
  | NaN => NaN
  | Inf _ => NaN
  | Fin x =>
    if Reqb x (-1) then Inf true
    else if Reqb x 1 then Inf false
    else if Rltb x (-1) || Rltb 1 x then NaN
    else
      let '(xx, negative) := if Rltb x 0 then (- x, true) else (x, false) in
      let ans :=
        if Rleb xx (85 / 100) then
          let r := 180625 / 1000000 - 25 / 100 * xx * xx in
          xx * horner IA r / horner IB r
        else
          let r := sqrt (ln 2 - ln (1 - xx)) in
          let '(z1, z2) :=
            if Rleb r 5 then
              let r := r - 16 / 10 in (horner IC r, horner ID r)
            else
              let r := r - 5 in (horner IE r, horner IF r) in
          z1 / z2 in
      if negative then Fin (- ans) else Fin ans
  end.
(** erf_inv.rs:170-172 `erfc_inv` *)
Definition erfc_inv (x : xr) : xr :=
  match x with
  | NaN => erf_inv NaN
  | Inf s => erf_inv (Inf (negb s))
  | Fin x => erf_inv (Fin (1 - x))
  end.
