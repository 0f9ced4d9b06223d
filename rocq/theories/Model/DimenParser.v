(** Model of src/parsing/{dimenparser,kernparser,glueparser,parshapeparser,
    optionsparser}.cpp. *)
From Coq Require Import List Ascii String QArith ZArith Bool Arith.
From Verif.Base Require Import Result Num.
From Verif.Model Require Import Token Glue Dimen.
Import ListNotations.

(** include/tex/parsing/parsing-utils.h:16-19; a negative [char] is no digit *)
Definition is_digit (c : ascii) : bool :=
  (48 <=? nat_of_ascii c)%nat && (nat_of_ascii c <=? 57)%nat.
(** include/tex/parsing/parsing-utils.h:21-24 *)
Definition is_lowercase_letter (c : ascii) : bool :=
  (97 <=? nat_of_ascii c)%nat && (nat_of_ascii c <=? 122)%nat.
(** [c - '0'] *)
Definition digit_of (c : ascii) : Z := (Z.of_nat (nat_of_ascii c) - 48)%Z.
Definition is_sep (c : ascii) : bool := ceq c "."%char || ceq c ","%char.

(** [std::stof] on the strings the parser builds: decimal digits, then
    optionally a point and digits ("C" locale).  It reads the longest such
    prefix; with no digit at all it throws [std::invalid_argument]. *)
Fixpoint stof_int (acc : Z) (s : name) : Z * name :=
  match s with
  | c :: r => if is_digit c then stof_int (acc * 10 + digit_of c)%Z r else (acc, s)
  | [] => (acc, [])
  end.
Fixpoint stof_frac (acc : Q) (scale : Q) (s : name) : Q :=
  match s with
  | c :: r =>
      if is_digit c
      then stof_frac (acc + inject_Z (digit_of c) * scale)%Q (scale * (1 # 10))%Q r
      else acc
  | [] => acc
  end.
Definition has_digit (s : name) : bool := existsb is_digit s.
Definition stof_q (s : name) : option Q :=
  if has_digit s then
    let (i, r) := stof_int 0 s in
    match r with
    | c :: f => if ceq c "."%char then Some (stof_frac (inject_Z i) (1 # 10) f)
                else Some (inject_Z i)
    | [] => Some (inject_Z i)
    end
  else None.

Section Parsers.
  Context {N : Num}.
  (** the factors that [std::stof] does not refuse with [std::out_of_range] *)
  Context (in_range : Q -> bool).

  (** the number is normalised so that equal numbers are one number *)
  Definition stof (s : name) : result N :=
    match stof_q s with
    | None => Throw
    | Some q => if in_range (Qred q) then Ok (nlit (Qred q)) else Throw
    end.

  (** include/tex/parsing/dimenparser.h:22-28 *)
  Inductive dp_state : Set := ParseOptionalSign | ParsingFactor | ParsingUnit | DFinished.

  (** include/tex/parsing/dimenparser.h:30-35; [dp_neg] is [m_sign == '-'] *)
  Record dparser := mkDP {
    dp_st : dp_state; dp_neg : bool; dp_factor : name; dp_decimal : bool; dp_unit : name }.

  (** dimenparser.h:31-35 initial values; dimenparser.cpp:20-27 [reset] *)
  Definition dp_init : dparser := mkDP ParseOptionalSign false [] false [].

  (** src/parsing/dimenparser.cpp:110-119 [hasResult] *)
  Definition dp_hasResult (p : dparser) : bool :=
    match dp_st p with
    | DFinished => true
    | ParsingUnit =>
        match str2phyunit (dp_unit p) with
        | Some _ => true
        | None => match str2unit (dp_unit p) with Some _ => true | None => false end
        end
    | _ => false
    end.

  (** src/parsing/dimenparser.cpp:66-88: [case State::ParsingFactor] *)
  Definition dp_write_factor (p : dparser) (c : ascii) : result dparser :=
    if is_digit c then
      Ok (mkDP ParsingFactor (dp_neg p) (dp_factor p ++ [c]) (dp_decimal p) (dp_unit p))
    else if is_sep c then
      if dp_decimal p then Throw
      else Ok (mkDP ParsingFactor (dp_neg p) (dp_factor p ++ ["."%char]) true (dp_unit p))
    else if is_lowercase_letter c then
      Ok (mkDP ParsingUnit (dp_neg p) (dp_factor p) (dp_decimal p) (dp_unit p ++ [c]))
    else Ok (mkDP ParsingFactor (dp_neg p) (dp_factor p) (dp_decimal p) (dp_unit p)).

  (** src/parsing/dimenparser.cpp:29-108 [write] *)
  Definition dp_write (p : dparser) (c : ascii) : result dparser :=
    match dp_st p with
    | ParseOptionalSign =>
        if ceq c "+"%char then Ok p
        else if ceq c "-"%char then
          Ok (mkDP ParseOptionalSign (negb (dp_neg p)) (dp_factor p) (dp_decimal p) (dp_unit p))
        else if is_digit c then dp_write_factor p c
        else if is_sep c then
          Ok (mkDP ParsingFactor (dp_neg p) (dp_factor p ++ ["0"%char; "."%char]) true (dp_unit p))
        else Throw
    | ParsingFactor => dp_write_factor p c
    | ParsingUnit =>
        if is_lowercase_letter c then
          Ok (mkDP ParsingUnit (dp_neg p) (dp_factor p) (dp_decimal p) (dp_unit p ++ [c]))
        else if dp_hasResult p then
          Ok (mkDP DFinished (dp_neg p) (dp_factor p) (dp_decimal p) (dp_unit p))
        else Throw
    | DFinished => Ok p
    end.

  (** src/parsing/dimenparser.cpp:126-138 [finish] *)
  Definition dp_finish (p : dparser) : result (dimen N) :=
    do v <- stof (dp_factor p);
    let value := nmul v (nz (if dp_neg p then -1 else 1)) in
    match str2phyunit (dp_unit p) with
    | Some pu => Ok (dimen_phy value pu)
    | None =>
        Ok (mkDimen value (match str2unit (dp_unit p) with Some u => u | None => UFilll end))
    end.

  (** src/parsing/dimenparser.cpp:121-124 *)
  Definition dp_isFinished (p : dparser) : bool :=
    match dp_st p with DFinished => true | _ => false end.

  Definition dp_writes (p : dparser) (t : name) : result dparser := foldM dp_write t p.

  (** * KernParser *)
  (** include/tex/parsing/kernparser.h:23-32; [kp_done]: state [Finished] *)
  Record kparser := mkKP { kp_done : bool; kp_dimen : dparser }.
  Definition kp_init : kparser := mkKP false dp_init.

  (** src/parsing/kernparser.cpp:19-44 [write] *)
  Definition kp_write (p : kparser) (c : ascii) : result kparser :=
    if kp_done p then (if ceq c " "%char then Ok p else Throw)
    else
      do d <- dp_write (kp_dimen p) c;
      Ok (mkKP (dp_isFinished d) d).

  (** src/parsing/kernparser.cpp:51-59 [finish]: the width of the kern *)
  Definition kp_finish (us : unitsystem N) (p : kparser) : result N :=
    do d <- dp_finish (kp_dimen p);
    if negb (d_isFinite d) then Throw else d_eval d us.

  Definition kp_writes (p : kparser) (t : name) : result kparser := foldM kp_write t p.

  (** * GlueParser *)
  (** include/tex/parsing/glueparser.h:24-36 *)
  Inductive gp_state : Set :=
  | GParsingSpace | GParsedSpace | GParsingPlus | GParsedPlus | GParsingPlusDimen
  | GParsedPlusDimen | GParsingMinus | GParsedMinus | GParsingMinusDimen | GFinished.

  (** include/tex/parsing/glueparser.h:38-43 *)
  Record gparser := mkGP {
    gp_st : gp_state; gp_dimen : dparser; gp_spec : glue N; gp_word : nat }.

  (** src/parsing/glueparser.cpp:13-18 *)
  Definition gp_init : gparser :=
    mkGP GParsingSpace dp_init (mkGlue n0 n0 n0 Normal Normal) 0.

  (** src/parsing/glueparser.cpp:20-37 [writeGlueOrder] *)
  Definition writeGlueOrder (u : unit_t) : result gorder :=
    match u with
    | UFil => Ok Fil | UFill => Ok Fill | UFilll => Ok Filll
    | _ => Abort
    end.

  (** src/parsing/glueparser.cpp:39-51 [write(float&, GlueOrder&, Dimen)] *)
  Definition gp_component (us : unitsystem N) (d : dimen N) : result (N * gorder) :=
    if negb (d_isFinite d) then
      do o <- writeGlueOrder (d_unit d); Ok (d_value d, o)
    else
      do v <- d_eval d us; Ok (v, Normal).

  Definition set_space (g : glue N) (v : N) : glue N :=
    mkGlue v (g_shrink g) (g_stretch g) (g_shrinkOrder g) (g_stretchOrder g).
  Definition set_stretch (g : glue N) (x : N * gorder) : glue N :=
    mkGlue (g_space g) (g_shrink g) (fst x) (g_shrinkOrder g) (snd x).
  Definition set_shrink (g : glue N) (x : N * gorder) : glue N :=
    mkGlue (g_space g) (fst x) (g_stretch g) (snd x) (g_stretchOrder g).

  (** src/parsing/glueparser.cpp:63-70, 162-169: the natural space *)
  Definition gp_space (us : unitsystem N) (p : gparser) : result gparser :=
    do d <- dp_finish (gp_dimen p);
    if negb (d_isFinite d) then Throw
    else
      do v <- d_eval d us;
      Ok (mkGP GParsedSpace (gp_dimen p) (set_space (gp_spec p) v) (gp_word p)).

  (** src/parsing/glueparser.cpp:53-156 [write(char)] *)
  Definition gp_write (us : unitsystem N) (p : gparser) (c : ascii) : result gparser :=
    match gp_st p with
    | GParsingSpace =>
        do d <- dp_write (gp_dimen p) c;
        let p' := mkGP GParsingSpace d (gp_spec p) (gp_word p) in
        if dp_isFinished d then gp_space us p' else Ok p'
    | GParsedSpace =>
        if ceq c " "%char then Ok p
        else if negb (ceq c "p"%char) then Throw
        else Ok (mkGP GParsingPlus (gp_dimen p) (gp_spec p) 1)
    | GParsedPlusDimen =>
        if ceq c " "%char then Ok p
        else if negb (ceq c "m"%char) then Throw
        else Ok (mkGP GParsingMinus (gp_dimen p) (gp_spec p) 1)
    | GParsingPlus | GParsingMinus =>
        let plus := match gp_st p with GParsingPlus => true | _ => false end in
        let word := if plus then str "plus" else str "minus" in
        if ceq c (cat_at word (gp_word p)) then
          let w := S (gp_word p) in
          if ceq (cat_at word w) NUL then
            Ok (mkGP (if plus then GParsedPlus else GParsedMinus) dp_init (gp_spec p) w)
          else Ok (mkGP (gp_st p) (gp_dimen p) (gp_spec p) w)
        else Throw
    | GParsedPlus | GParsedMinus =>
        if ceq c " "%char then Ok p
        else
          let st := match gp_st p with GParsedPlus => GParsingPlusDimen
                    | _ => GParsingMinusDimen end in
          do d <- dp_write (gp_dimen p) c;
          Ok (mkGP st d (gp_spec p) (gp_word p))
    | GParsingPlusDimen =>
        do d <- dp_write (gp_dimen p) c;
        if dp_isFinished d then
          do dim <- dp_finish d;
          do x <- gp_component us dim;
          Ok (mkGP GParsedPlusDimen d (set_stretch (gp_spec p) x) (gp_word p))
        else Ok (mkGP GParsingPlusDimen d (gp_spec p) (gp_word p))
    | GParsingMinusDimen =>
        do d <- dp_write (gp_dimen p) c;
        if dp_isFinished d then
          do dim <- dp_finish d;
          do x <- gp_component us dim;
          Ok (mkGP GFinished d (set_shrink (gp_spec p) x) (gp_word p))
        else Ok (mkGP GParsingMinusDimen d (gp_spec p) (gp_word p))
    | GFinished => Ok p
    end.

  (** src/parsing/glueparser.cpp:158-187 [finish] *)
  Definition gp_finish (us : unitsystem N) (p : gparser) : result (glue N) :=
    do p <- (match gp_st p with GParsingSpace => gp_space us p | _ => Ok p end);
    match gp_st p with
    | GParsedSpace => Ok (glue_space (g_space (gp_spec p)))
    | GParsingMinusDimen =>
        do d <- dp_finish (gp_dimen p);
        do x <- gp_component us d;
        Ok (set_shrink (gp_spec p) x)
    | GFinished => Ok (gp_spec p)
    | _ => Throw
    end.

  Definition gp_writes (us : unitsystem N) (p : gparser) (t : name) : result gparser :=
    foldM (gp_write us) t p.

  (** * ParshapeParser *)
  (** include/tex/parsing/parshapeparser.h:25-32 *)
  Inductive pp_state : Set :=
  | PAssign | PNum | PIndent | PLength | PFinished.

  (** include/tex/parsing/parshapeparser.h:35-39.  A spec whose length has not
      been written yet is the pending indent [pp_pending] (in the code: the
      last element of [m_specs], with an indeterminate length). *)
  Record pparser := mkPP {
    pp_st : pp_state; pp_num : Z; pp_specs : list (N * N); pp_pending : option N;
    pp_dimen : dparser }.
  Definition pp_init : pparser := mkPP PAssign 0 [] None dp_init.

  Definition INT_MAX : Z := 2147483647.

  (** [m_specs.size()] *)
  Definition pp_size (p : pparser) : Z :=
    (Z.of_nat (List.length (pp_specs p)) + match pp_pending p with Some _ => 1 | None => 0 end)%Z.

  (** [m_specs.back().length = v] *)
  Definition pp_set_length (p : pparser) (v : N) : result (list (N * N)) :=
    match pp_pending p with
    | Some i => Ok (pp_specs p ++ [(i, v)])
    | None => UB
    end.

  (** src/parsing/parshapeparser.cpp:21-116 [write] *)
  Definition pp_write (us : unitsystem N) (p : pparser) (c : ascii) : result pparser :=
    match pp_st p with
    | PAssign =>
        if ceq c "="%char then Ok (mkPP PNum (pp_num p) (pp_specs p) (pp_pending p) (pp_dimen p))
        else if is_digit c then
          Ok (mkPP PNum (digit_of c) (pp_specs p) (pp_pending p) (pp_dimen p))
        else Throw
    | PNum =>
        if is_digit c then
          let n := (pp_num p * 10 + digit_of c)%Z in
          if (INT_MAX <? n)%Z then UB
          else Ok (mkPP PNum n (pp_specs p) (pp_pending p) (pp_dimen p))
        else if ceq c " "%char then
          Ok (mkPP (if Z.eqb (pp_num p) 0 then PFinished else PIndent)
                   (pp_num p) (pp_specs p) (pp_pending p) (pp_dimen p))
        else Throw
    | PIndent =>
        do d <- dp_write (pp_dimen p) c;
        if dp_isFinished d then
          do dim <- dp_finish d;
          do v <- d_eval dim us;
          Ok (mkPP PLength (pp_num p) (pp_specs p) (Some v) dp_init)
        else Ok (mkPP PIndent (pp_num p) (pp_specs p) (pp_pending p) d)
    | PLength =>
        do d <- dp_write (pp_dimen p) c;
        if dp_isFinished d then
          do dim <- dp_finish d;
          do v <- d_eval dim us;
          do specs <- pp_set_length p v;
          if Z.eqb (Z.of_nat (List.length specs)) (pp_num p)
          then Ok (mkPP PFinished (pp_num p) specs None d)
          else Ok (mkPP PIndent (pp_num p) specs None dp_init)
        else Ok (mkPP PLength (pp_num p) (pp_specs p) (pp_pending p) d)
    | PFinished => if ceq c " "%char then Ok p else Throw
    end.

  (** src/parsing/parshapeparser.cpp:123-142 [finish] *)
  Definition pp_finish (us : unitsystem N) (p : pparser) : result (list (N * N)) :=
    match pp_st p with
    | PFinished => Ok (pp_specs p)
    | PNum => if Z.eqb (pp_num p) 0 then Ok [] else Throw
    | PLength =>
        if Z.eqb (pp_num p) (pp_size p) then
          do d <- dp_finish (pp_dimen p);
          do v <- d_eval d us;
          pp_set_length p v
        else Throw
    | _ => Throw
    end.

  Definition pp_writes (us : unitsystem N) (p : pparser) (t : name) : result pparser :=
    foldM (pp_write us) t p.
End Parsers.
Arguments gparser N : clear implicits.
Arguments pparser N : clear implicits.

(** * OptionsParser *)
(** include/tex/parsing/optionsparser.h:23-29 *)
Inductive op_state : Set := ParseLeftBracket | ParseKey | ParseValue | OFinished.

(** include/tex/parsing/optionsparser.h:32-35 *)
Record oparser := mkOP {
  op_st : op_state; op_key : name; op_value : name; op_result : list (name * name) }.

Definition op_init : oparser := mkOP ParseLeftBracket [] [] [].

Section Options.
  (** what [std::move] leaves in a [std::string]: unspecified by the standard *)
  Context (moved : name -> name).

  (** src/parsing/optionsparser.cpp:30-33 [write(key, value)].  The virtual
      call is not modelled: no class overrides it in the library. *)
  Definition op_emit (p : oparser) : oparser :=
    mkOP (op_st p) (moved (op_key p)) (moved (op_value p))
         (op_result p ++ [(op_key p, op_value p)]).

  (** src/parsing/optionsparser.cpp:35-107 [write(char)] *)
  Definition op_write (p : oparser) (c : ascii) : result oparser :=
    match op_st p with
    | ParseLeftBracket =>
        if ceq c "["%char then Ok (mkOP ParseKey (op_key p) (op_value p) (op_result p))
        else if ceq c " "%char then Ok p else Throw
    | ParseKey =>
        if ceq c "="%char then Ok (mkOP ParseValue (op_key p) (op_value p) (op_result p))
        else if ceq c ","%char then
          let q := op_emit p in Ok (mkOP ParseKey [] (op_value q) (op_result q))
        else if ceq c "]"%char then
          match op_key p with
          | [] => Ok (mkOP OFinished [] (op_value p) (op_result p))
          | _ => let q := op_emit p in Ok (mkOP OFinished [] (op_value q) (op_result q))
          end
        else
          let k := op_key p ++ [c] in
          Ok (mkOP ParseKey
                (if ceq c " "%char && Nat.eqb (List.length k) 1 then removelast k else k)
                (op_value p) (op_result p))
    | ParseValue =>
        if ceq c ","%char then
          let q := op_emit p in Ok (mkOP ParseKey [] [] (op_result q))
        else if ceq c "]"%char then
          let q := op_emit p in Ok (mkOP OFinished [] [] (op_result q))
        else Ok (mkOP ParseValue (op_key p) (op_value p ++ [c]) (op_result p))
    | OFinished => Ok p
    end.

  Definition op_writes (p : oparser) (t : name) : result oparser := foldM op_write t p.

  (** src/parsing/optionsparser.cpp:119-125 [finish] *)
  Definition op_finish (p : oparser) : result (list (name * name)) :=
    match op_st p with OFinished => Ok (op_result p) | _ => Throw end.
End Options.
