(** Model of the number formatting of python/getdist/types.py (class NumberFormatter and function numberFigs).

    Numbers.  A finite number is given by its decimal expansion: sign, digits and exponent, as returned by
    [decimal.Decimal(x).as_tuple()].  Decimal(x) is exact for Python floats, so every float is such a number.
    Arithmetic on floats (frac, value+limplus, ...) is modelled by exact rational arithmetic. *)
From Verif Require Import PyBase PyNum.
From Coq Require Import ZArith QArith Qabs Qround String Ascii Bool List.
Import ListNotations.
Local Open Scope nat_scope.
Local Open Scope list_scope.

(** decimal.Decimal.as_tuple() of a finite number: digits from the most significant one *)
Record dec := mkdec { d_neg : bool; d_digits : list nat; d_exp : Z }.
(** a decimal.Decimal; infinities and not-a-number are special *)
Inductive dnum := Fin (d : dec) | Inf (neg : bool) | NaN (neg : bool).

(** as_tuple()[0:2]: an infinity has the digits (0,), NaN (without payload) has none *)
Definition as_sign (d : dnum) : bool := match d with Fin d => d_neg d | Inf n => n | NaN n => n end.
Definition as_digits (d : dnum) : list nat := match d with Fin d => d_digits d | Inf _ => [0] | NaN _ => [] end.
(** Decimal.adjusted(): exponent of the leading digit, 0 for special values *)
Definition adjusted (d : dnum) : Z :=
  match d with Fin d => (d_exp d + Z.of_nat (length (d_digits d)) - 1)%Z | _ => 0%Z end.

(** int(''.join(map(str, digits))) for a non-empty list of digits *)
Definition int_of (l : list nat) : nat := fold_left (fun a x => 10 * a + x) l 0.

(** result.insert(i, s) on a list of characters, for i >= 0 *)
Definition insert_at (i : nat) (s : str) (l : str) : str := firstn i l ++ s ++ skipn i l.

(** types.py:55-83: the text of the digits, from the line after the sci block to the end *)
Definition figs_text (d : dnum) (sigfig : nat) : str :=
  let digits := as_digits d ++ repeat 0 (sigfig - length (as_digits d)) in
  let shift := adjusted d in
  let result := int_of (firstn sigfig digits) in
  let result := if (sigfig <? length digits) && (5 <=? nth sigfig digits 0) then result + 1 else result in
  let text := show_nat result in
  let shift := (shift + Z.of_nat (length text) - Z.of_nat sigfig)%Z in
  let text := firstn sigfig text in
  let text :=
    if (Z.of_nat sigfig - 1 <=? shift)%Z then text ++ repeat "0"%char (Z.to_nat (shift - Z.of_nat sigfig + 1))
    else if (0 <=? shift)%Z then insert_at (Z.to_nat (shift + 1)) (L ".") text
    else L "0." ++ repeat "0"%char (Z.to_nat (- shift - 1)) ++ text in
  if as_sign d then L "-" ++ text else text.

(** types.py:45-87, sci=False.  The assertion fails for sigfig <= 0. *)
Definition numberFigs (d : dnum) (sigfig : Z) : res str :=
  if (sigfig <=? 0)%Z then Err (OtherError (L "AssertionError")) else Ok (figs_text d (Z.to_nat sigfig)).

(** types.py:52-57, 84-85, sci=True.  [scale d e] stands for
    decimal.getcontext().multiply(d, float_to_decimal(10. ** -e)), which rounds to the precision of the
    context and raises when 10. ** -e overflows. *)
Definition sci_tolerance : Z := 4.
Definition numberFigs_sci (scale : dnum -> Z -> res dnum) (d : dnum) (sigfig : Z) : res (str * Z) :=
  if (sigfig <=? 0)%Z then Err (OtherError (L "AssertionError")) else
  let exponent := adjusted d in
  if (sci_tolerance <? Z.abs exponent)%Z
  then bindR (scale d exponent) (fun d' => Ok (figs_text d' (Z.to_nat sigfig), exponent))
  else Ok (figs_text d (Z.to_nat sigfig), 0%Z).

(** float(s) > 0 for a text written by numberFigs: no minus sign and some digit other than 0 *)
Definition text_positive (s : str) : bool :=
  negb (startswith (L "-") s) && existsb (fun c => negb (ch_eqb c "0"%char) && negb (ch_eqb c "."%char)) s.

(** types.py:138-154, sci=False: wantSign puts a plus sign before positive numbers.  The first test of the
    wantSign block (s[0] != '-' and float(s) < 0) never holds: a negative number has its sign already. *)
Definition formatNumber (value : dnum) (sig_figs : Z) (wantSign : bool) : res str :=
  bindR (numberFigs value sig_figs) (fun s =>
  Ok (if wantSign && text_positive s then L "+" ++ s else s)).
Definition formatNumber_sci (scale : dnum -> Z -> res dnum) (value : dnum) (sig_figs : Z) : res (str * Z) :=
  numberFigs_sci scale value sig_figs.

(** types.py:156-160 *)
Definition decimal_places (s : str) : nat :=
  match find_ch "."%char s with
  | Some i => if 0 <? i then length s - i - 1 else 0
  | None => 0
  end.

(** the rational number with this expansion *)
Definition pow10 (e : Z) : Q := Qpower 10 e.
Definition dec_abs (d : dec) : Q := (inject_Z (Z.of_nat (int_of (d_digits d))) * pow10 (d_exp d))%Q.
Definition dec_val (d : dec) : Q := if d_neg d then (- dec_abs d)%Q else dec_abs d.
(** comparisons with special values raise in this model; the code is used on finite numbers *)
Definition num_val (d : dnum) : res Q := match d with Fin d => Ok (dec_val d) | _ => Err ValueError end.

(** round to the nearest integer, ties to even, as printf does on the exact value *)
Definition round_even (x : Q) : Z :=
  let f := Qfloor x in
  match (x - inject_Z f ?= 1 # 2)%Q with
  | Lt => f
  | Gt => (f + 1)%Z
  | Eq => if Z.even f then f else (f + 1)%Z
  end.
(** ('%.' + str(n) + 'f') % value *)
Definition fixed_point (n : nat) (d : dec) : str :=
  let m := Z.to_nat (round_even (dec_abs d * pow10 (Z.of_nat n))%Q) in
  let t := show_nat m in
  let t := repeat "0"%char (S n - length t) ++ t in
  let t := if n =? 0 then t else insert_at (length t - n) (L ".") t in
  if d_neg d then L "-" ++ t else t.
(** the decimal number 0.0 *)
Definition dzero : dec := mkdec false [0] 0%Z.
(** types.py:123-125: float(res) == 0.0 *)
Definition text_zero (s : str) : bool :=
  negb (existsb (fun c => negb (ch_eqb c "0"%char) && negb (ch_eqb c "."%char) && negb (ch_eqb c "-"%char)) s).
Definition fixed_nozero (n : nat) (d : dec) : str :=
  let res := fixed_point n d in
  if text_zero res then fixed_point n dzero else res.

(** types.py:120-128: lose figures until the value has at most maxdp decimals.  The number of figures goes
    down to 0, where the loop ends; recursion is on that number. *)
Fixpoint fewer (value : dec) (maxdp : nat) (sf : nat) (res : str) : nat * str :=
  if maxdp <? decimal_places res then
    match sf with
    | 0 => (0, res)  (* not reached: the loop starts with sf >= 1 and stops at 0 *)
    | S 0 => (0, fixed_nozero maxdp value)
    | S sf' => fewer value maxdp sf' (figs_text (Fin value) sf')
    end
  else (sf, res).
(** types.py:130-131 (second loop): add figures until the value has as many decimals as the upper error *)
Fixpoint more (fuel : nat) (value : dec) (plusdp : nat) (sf : nat) (res : str) : option str :=
  match fuel with
  | 0 => None
  | S k => if decimal_places res <? plusdp then more k value plusdp (S sf) (figs_text (Fin value) (S sf)) else Some res
  end.

(** types.py:88-94 *)
Record numformatter := mknf { nf_sig_figs : nat; nf_err_sf : nat }.
Definition default_nf : numformatter := mknf 4 2.

(** x > y on rationals *)
Definition Qgt_b (x y : Q) : bool := negb (Qle_bool x y).
Definition Qlt_bb (x y : Q) : bool := negb (Qle_bool y x).

(** types.py:97-104: number of figures for the value and for the errors.  0.1 and 0.01 are taken as exact. *)
Definition choose_sf (nf : numformatter) (value limplus : Q) : res (nat * nat) :=
  if Qeq_bool (Qabs value + limplus)%Q 0 then Err ZeroDivisionError else
  let frac := (limplus / (Qabs value + limplus))%Q in
  let sf := if Qgt_b frac (1 # 10) && Qgt_b 100 value && Qle_bool 20 value then 2
            else if Qgt_b frac (1 # 100) && Qlt_bb value 1000 then 3 else nf_sig_figs nf in
  let err_sf := if Qle_bool 20 value && Qgt_b frac (1 # 10) && Qle_bool 2 limplus then 1 else nf_err_sf nf in
  Ok (sf, err_sf).

(** types.py:97-135, sci=False, from the figures chosen above: the texts of value, upper and lower error *)
Definition align (fuel : nat) (value limplus limminus : dec) (sf err_sf : nat) (wantSign : bool) : res (str * str * str) :=
  bindR (formatNumber (Fin limplus) (Z.of_nat err_sf) wantSign) (fun plus_str =>
  bindR (formatNumber (Fin limminus) (Z.of_nat err_sf) wantSign) (fun minus_str =>
  bindR (formatNumber (Fin value) (Z.of_nat sf) false) (fun res =>
  let maxdp := Nat.max (decimal_places plus_str) (decimal_places minus_str) in
  let r := fewer value maxdp sf res in
  match more fuel value (decimal_places plus_str) (fst r) (snd r) with
  | None => Err (OtherError (L "out of fuel"))
  | Some res => Ok (res, plus_str, minus_str)
  end))).
Definition namesigFigs (fuel : nat) (nf : numformatter) (value limplus limminus : dec) (wantSign : bool) : res (str * str * str) :=
  bindR (choose_sf nf (dec_val value) (dec_val limplus)) (fun p =>
  align fuel value limplus limminus (fst p) (snd p) wantSign).

(** types.py:105-113, sci=True: the exponent of the larger end, and all three numbers divided by that power.
    [fl q] stands for the decimal expansion of the float nearest to q, needed for the ends. *)
Definition namesigFigs_sci (fuel : nat) (scale : dnum -> Z -> res dnum) (fl : Q -> dec) (nf : numformatter)
    (value limplus limminus : dec) (wantSign : bool) : res (str * str * str * Z) :=
  bindR (choose_sf nf (dec_val value) (dec_val limplus)) (fun p =>
  let lo := Qabs (dec_val value - dec_val limminus)%Q in
  let hi := Qabs (dec_val value + dec_val limplus)%Q in
  bindR (formatNumber_sci scale (Fin (fl (if Qle_bool lo hi then hi else lo))) (Z.of_nat (nf_sig_figs nf))) (fun se =>
  let exponent := snd se in
  let sc := fun x => match scale (Fin x) exponent with
                     | Ok (Fin y) => Ok y | Ok _ => Err ValueError | Err e => Err e end in
  if (exponent =? 0)%Z
  then bindR (align fuel value limplus limminus (fst p) (snd p) wantSign) (fun t => Ok (t, 0%Z))
  else bindR (sc value) (fun v => bindR (sc limplus) (fun a => bindR (sc limminus) (fun b =>
       bindR (align fuel v a b (fst p) (snd p) wantSign) (fun t => Ok (t, exponent))))))).

(** types.py:162-163.  [tol] is separate_limit_tol; upper / lower raises for lower = 0. *)
Definition plusMinusLimit (tol : Q) (limit : Z) (upper lower : Q) : res bool :=
  if negb (limit =? 1)%Z then Ok true
  else if Qeq_bool lower 0 then Err ZeroDivisionError
  else Ok (Qgt_b (Qabs (Qabs (upper / lower) - 1)) tol).
