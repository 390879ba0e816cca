(** Model of marginalised statistics: python/getdist/types.py ParamLimit and MargeStats (text output, reading and
    table entries), and python/getdist/mcsamples.py _setMargeLimits.

    Numbers.  For the text file a number is an element of a type [F] with three functions: [fmtE], the text of
    '%.7E' (padded to 15 columns by the format), [show], the text of str(), and [parse], float(text).  Table entries
    use the decimal numbers of FmtModel. *)
From Verif Require Import PyBase PyNum FmtModel.
From Coq Require Import ZArith QArith Qabs String Ascii Bool List.
Import ListNotations.
Local Open Scope nat_scope.
Local Open Scope list_scope.

(** types.py:589-615.  Simplification: both bounds are numbers; None is not modelled ('%15.7E' % None raises). *)
Record plimit {F} := mklim { l_lower : F; l_upper : F; l_two : bool; l_up : bool; l_low : bool }.
Arguments plimit : clear implicits.
Definition ParamLimit {F} (lower upper : F) (tag : str) : plimit F :=
  mklim F lower upper (str_eqb tag (L "two")) (str_eqb tag (L ">")) (str_eqb tag (L "<")).
(** types.py:617-632 *)
Definition limitTag {F} (l : plimit F) : str :=
  if l_two l then L "two" else if l_up l then L ">" else if l_low l then L "<" else L "none".
(** types.py:634-650 *)
Definition limitType {F} (l : plimit F) : str :=
  if l_two l then L "two tail" else if l_up l then L "one tail upper limit"
  else if l_low l then L "one tail lower limit" else L "none".

(** the ParamInfo of a MargeStats, and the object *)
Record mpar {F} := mkmpar { m_name : str; m_derived : bool; m_mean : F; m_err : F; m_limits : list (plimit F); m_label : str }.
Arguments mpar : clear implicits.
Record mstats {F} := mkms { ms_limits : list F; ms_names : list (mpar F) }.
Arguments mstats : clear implicits.

(** '%-ns' and '%ns' *)
Definition ljust (n : nat) (s : str) : str := s ++ repeat " "%char (n - List.length s).
Definition rjust (n : nat) (s : str) : str := repeat " "%char (n - List.length s) ++ s.
(** s.split(None, k): after k words the rest, without the blanks before it *)
Fixpoint take_word (s : str) : str * str :=
  match s with
  | [] => ([], [])
  | c :: s' => if is_space c then ([], s) else let r := take_word s' in (c :: fst r, snd r)
  end.
Fixpoint split_ws_n (k : nat) (s : str) : list str :=
  match lstrip s with
  | [] => []
  | s1 => match k with
          | 0 => [s1]
          | S k' => fst (take_word s1) :: split_ws_n k' (snd (take_word s1))
          end
  end.

Section File.
  Context {F : Type} (fmtE show : F -> str) (parse : str -> res F).

  (** paramnames.py:366-371: width of the column of names; max([]) raises *)
  Definition name_width (M : mstats F) : res nat :=
    match ms_names M with
    | [] => Err ValueError
    | names => Ok (Nat.max 9 (fold_right Nat.max 0 (map (fun p => List.length (m_name p)) names)) + 1)
    end.
  (** paramnames.py:373-378, tag_derived *)
  Definition tagged_name (p : mpar F) : str := if m_derived p then m_name p ++ L "*" else m_name p.
  (** types.py:699-715 (inc_limits=False) *)
  Definition headerLine (w : nat) (nlim : nat) : str :=
    ljust w (L "parameter") ++ L "  " ++ ljust 15 (L "mean") ++ ljust 15 (L "sddev") ++
    concat (map (fun j => let tag := show_nat (j + 1) in
                          ljust 15 (L "lower" ++ tag) ++ ljust 15 (L "upper" ++ tag) ++ ljust 7 (L "limit" ++ tag)) (seq 0 nlim)).
  (** types.py:725-730 *)
  Definition lim_text (l : plimit F) : str :=
    rjust 15 (fmtE (l_lower l)) ++ rjust 15 (fmtE (l_upper l)) ++ L "  " ++ ljust 5 (limitTag l).
  Definition par_line (w : nat) (p : mpar F) : str :=
    ljust w (tagged_name p) ++ rjust 15 (fmtE (m_mean p)) ++ rjust 15 (fmtE (m_err p)) ++
    concat (map lim_text (m_limits p)) ++ L "   " ++ m_label p.
  (** types.py:717-731; the lines, each followed by a newline *)
  Definition margeLines (M : mstats F) (w : nat) : list str :=
    (L "Marginalized limits: " ++ join (L "; ") (map show (ms_limits M))) :: [] :: headerLine w (List.length (ms_limits M)) ::
    map (par_line w) (ms_names M).
  Definition margeText (M : mstats F) : res str :=
    bindR (name_width M) (fun w => Ok (concat (map (fun l => l ++ [nl]) (margeLines M w)))).

  (** types.py:695-696, limit i of the items of a line *)
  Definition read_limit (items : list str) (i : nat) : res (plimit F) :=
    bindR (mapR parse (slice (3 + i * 3) (5 + i * 3) items)) (fun b =>
    match nth_error items (5 + i * 3) with
    | None => Err IndexError
    | Some tag => match b with
                  | lo :: hi :: _ => Ok (ParamLimit lo hi tag)
                  | _ => Err IndexError
                  end
    end).
  (** types.py:683-697 *)
  Definition read_par (nlim : nat) (line : str) : res (mpar F) :=
    let items := map strip (split_ws_n (nlim * 3 + 3) line) in
    match items with
    | [] => Err IndexError
    | name :: _ =>
        match rev name with
        | [] => Err IndexError
        | c :: r =>
            let derived := ch_eqb c "*"%char in
            let name := if derived then rev r else name in
            match nth_error items 1, nth_error items 2 with
            | Some m, Some e =>
                bindR (parse m) (fun mean => bindR (parse e) (fun err =>
                bindR (mapR (read_limit items) (seq 0 nlim)) (fun lims =>
                Ok (mkmpar F name derived mean err lims (last items [])))))
            | Some m, None => bindR (parse m) (fun _ => Err IndexError)
            | None, _ => Err IndexError
            end
        end
    end.
  (** the loop over lines: stops at the first blank line *)
  Fixpoint read_pars (nlim : nat) (lines : list str) : res (list (mpar F)) :=
    match lines with
    | [] => Ok []
    | l :: rest => match strip l with
                   | [] => Ok []
                   | _ => bindR (read_par nlim l) (fun p => bindR (read_pars nlim rest) (fun ps => Ok (p :: ps)))
                   end
    end.
  (** types.py:672-697.  The parameters are added to the (empty) list of a new object. *)
  Definition loadFromFile (text : str) : res (mstats F) :=
    match text_lines text with
    | [] => Err IndexError
    | l0 :: rest =>
        match split_ch ":"%char l0 with
        | _ :: lims :: _ =>
            bindR (mapR (fun s => parse (strip s)) (split_ch ";"%char lims)) (fun limits =>
            bindR (read_pars (List.length limits) (skipn 2 rest)) (fun ps =>
            Ok (mkms F limits ps)))
        | _ => Err IndexError
        end
    end.
End File.

(** ** Table entries, types.py:757-828, without refResults *)

(** str(n) of an integer, and types.py:26-27 *)
Definition show_int (z : Z) : str := if (z <? 0)%Z then L "-" ++ show_nat (Z.to_nat (- z)) else show_nat (Z.to_nat z).
Definition times_ten_power (e : Z) : str := L "\cdot 10^{" ++ show_int e ++ L "}".
Definition with_power (e : Z) (s : str) : str := if (e =? 0)%Z then s else s ++ times_ten_power e.

(** what a table entry depends on besides the parameter: fuel of the loops, scaling and rounding of floats (see
    FmtModel), the number formatter, its separate_limit_tol and the text of no constraint *)
Record texcfg := mkcfg { c_fuel : nat; c_scale : dnum -> Z -> res dnum; c_fl : Q -> dec; c_nf : numformatter; c_tol : Q; c_none : str }.

(** param.limits[limit - 1], where limit = 0 means the last one *)
Definition get_limit (p : mpar dec) (limit : nat) : res (plimit dec) :=
  match limit with
  | 0 => match rev (m_limits p) with [] => Err IndexError | l :: _ => Ok l end
  | S k => match nth_error (m_limits p) k with Some l => Ok l | None => Err IndexError end
  end.
Definition lim_entry (c : texcfg) (p : mpar dec) (limit : nat) (lim : plimit dec) : res str :=
  let fl := c_fl c in
  if startswith (L "chi2") (m_name p) then
    bindR (namesigFigs (c_fuel c) (c_nf c) (m_mean p) (m_err p) (m_err p) false) (fun t =>
    let '(res, sigma, _) := t in
    Ok (if limit =? 1 then res ++ L "\pm " ++ sigma
        else res ++ L "\,({\nu\rm{:}\," ++ fixed_point 1 (fl (dec_val (m_err p) * dec_val (m_err p) / 2)%Q) ++ L "})"))
  else if l_two lim then
    let up := (dec_val (l_upper lim) - dec_val (m_mean p))%Q in
    let lo := (dec_val (l_lower lim) - dec_val (m_mean p))%Q in
    bindR (plusMinusLimit (c_tol c) (Z.of_nat limit) up lo) (fun separate =>
    bindR (if separate
           then bindR (namesigFigs_sci (c_fuel c) (c_scale c) fl (c_nf c) (m_mean p) (fl up) (fl lo) true) (fun t =>
                let '(res, plus, minus, e) := t in Ok (res ++ L "^{" ++ plus ++ L "}_{" ++ minus ++ L "}", e))
           else bindR (namesigFigs_sci (c_fuel c) (c_scale c) fl (c_nf c) (m_mean p) (m_err p) (m_err p) false) (fun t =>
                let '(res, plus, _, e) := t in Ok (res ++ L "\pm " ++ plus, e))) (fun re =>
    let '(res, e) := re in
    Ok (if (e =? 0)%Z then res else L "\left(\," ++ res ++ L "\,\right)" ++ times_ten_power e)))
  else if l_up lim then
    bindR (formatNumber_sci (c_scale c) (Fin (l_upper lim)) 3) (fun se => Ok (with_power (snd se) (L "< " ++ fst se)))
  else if l_low lim then
    bindR (formatNumber_sci (c_scale c) (Fin (l_lower lim)) 3) (fun se => Ok (with_power (snd se) (L "> " ++ fst se)))
  else Ok (c_none c).
(** [best] is param.best_fit when hasBestFit *)
Definition margeTexValues (c : texcfg) (p : option (mpar dec)) (limit : nat) (best : option dec) : res (option (list str)) :=
  match p with
  | None => Ok None
  | Some p =>
      bindR (get_limit p limit) (fun lim =>
      bindR (lim_entry c p limit lim) (fun res =>
      match best with
      | None => Ok (Some [res])
      | Some b =>
          let rangew := ((dec_val (l_upper lim) - dec_val (l_lower lim)) / 10)%Q in
          bindR (namesigFigs_sci (c_fuel c) (c_scale c) (c_fl c) (c_nf c) b (c_fl c rangew) (c_fl c (- rangew)%Q) true) (fun t =>
          let '(bf, _, _, e) := t in Ok (Some [res; with_power e bf]))
      end))
  end.

(** ** mcsamples.py:2217-2282 _setMargeLimits *)

(** the 1D density: its values at the two ends, Prob, and getLimits of one level (lower, upper, limit at the lower
    end, limit at the upper end), see DensModel *)
Record density := mkdens { d_first : Q; d_last : Q; d_prob : Q -> Q; d_getLimits : Q -> Q * Q * bool * bool }.
(** the parameter: prior bounds that are close (has_limits) and the range; the settings: force_twotail and
    credible_interval_threshold; confidence(paramConfid, limfrac, upper) *)
Record mlcfg := mkml { h_bot : bool; h_top : bool; r_min : Q; r_max : Q; force_twotail : bool; cred_threshold : Q;
                       confidence : Q -> bool -> Q }.

Definition above_frac (has force : bool) (value : Q) (fracs : list Q) (ix : nat) : res bool :=
  if has && negb force then
    match nth_error fracs ix with Some f => Ok (negb (Qle_bool value f)) | None => Err IndexError end
  else Ok false.
Definition contour_limit (c : mlcfg) (d : density) (fracs : list Q) (ix : nat) (contour : Q) : res (plimit Q) :=
  bindR (above_frac (h_bot c) (force_twotail c) (d_first d) fracs ix) (fun bot =>
  bindR (above_frac (h_top c) (force_twotail c) (d_last d) fracs ix) (fun top =>
  if bot && top then Ok (ParamLimit (r_min c) (r_max c) (L "none")) else
  let '(lo, hi, bot, top) := d_getLimits d contour in
  let limfrac := (1 - contour)%Q in
  let lo1 := if bot then r_min c else if top then confidence c limfrac false else lo in
  let hi1 := if top then r_max c else if bot then confidence c limfrac true else hi in
  let clo := confidence c (limfrac / 2)%Q false in
  let chi := confidence c (limfrac / 2)%Q true in
  let '(lo2, hi2) :=
    if negb bot && negb top && negb (Qle_bool (cred_threshold c) (Qabs (d_prob d chi - d_prob d clo)%Q))
    then (clo, chi) else (lo1, hi1) in
  let tag := if bot && top then L "none" else if bot then L ">" else if top then L "<" else L "two" in
  Ok (ParamLimit lo2 hi2 tag))).
Fixpoint contour_limits (c : mlcfg) (d : density) (fracs : list Q) (ix : nat) (contours : list Q) : res (list (plimit Q)) :=
  match contours with
  | [] => Ok []
  | x :: rest => bindR (contour_limit c d fracs ix x) (fun l => bindR (contour_limits c d fracs (S ix) rest) (fun ls => Ok (l :: ls)))
  end.
Definition setMargeLimits (c : mlcfg) (d : density) (fracs contours : list Q) : res (list (plimit Q)) :=
  contour_limits c d fracs 0 contours.
