(** Model of include/tex/linebreaks.h and src/linebreaks.cpp. *)
From Coq Require Import List ZArith Bool QArith Qcanon Arith.
From Verif.Base Require Import Result Num.
From Verif.Model Require Import Glue Box ListBuilders.
Import ListNotations.

(** include/tex/linebreaks.h:15-20 *)
Inductive fitness : Set := Tight | Decent | Loose | VeryLoose.

Definition fitness_num (f : fitness) : Z :=
  match f with Tight => 0 | Decent => 1 | Loose => 2 | VeryLoose => 3 end.
Definition fitness_eqb (a b : fitness) : bool := (fitness_num a =? fitness_num b)%Z.

(** [int] is 32 bits wide; signed overflow and the conversion of an out of range
    floating-point value are undefined *)
Definition int_max : Z := 2147483647.
Definition int_min : Z := -2147483648.
Definition ck (z : Z) : result Z :=
  if ((int_min <=? z) && (z <=? int_max))%Z then Ok z else UB.

(** src/linebreaks.cpp:249-257 [computeDemerits]. The squares are computed in
    [double]; whenever the sum is in the range of [int] they are exact. *)
Definition computeDemerits (l b p : Z) : result Z :=
  do s <- ck (l + b)%Z;
  if ((0 <=? p) && (p <? 10000))%Z then ck (s * s + p * p)%Z
  else if ((-10000 <? p) && (p <? 0))%Z then ck (s * s - p * p)%Z
  else ck (s * s)%Z.

(** src/linebreaks.cpp:244-247 [checkCompatibility] *)
Definition checkCompatibility (a b : fitness) : bool :=
  (Z.abs (fitness_num a - fitness_num b) <=? 1)%Z.

Section LineBreaks.
  Context {N : Num}.

  (** The uses of [std::pow] with [float]s are parameters: [pw_cube r] is
      [(int)(100 * std::pow(std::abs(r), 3))] (line 215), and [pw_within t r] is
      [r <= std::pow(t / 100.f, 1.f / 3.f)] (lines 370, 396). *)
  Record pows := mkPows { pw_cube : N -> Z; pw_within : Z -> N -> bool }.
  Variable pw : pows.

  (** include/tex/linebreaks.h:22-39: the public data members *)
  Record para := mkPara {
    p_tolerance : Z; p_adjdemerits : Z; p_linepenalty : Z;
    p_hsize : N; p_hangindent : N; p_hangafter : Z; p_parshape : list (N * N);
    p_leftskip : glue N; p_rightskip : glue N; p_parfillskip : glue N;
    p_baselineskip : glue N; p_lineskip : glue N; p_lineskiplimit : N; p_prevdepth : N }.

  (** src/linebreaks.cpp:53-61 and the default member initializers; note the
      order of the arguments of [Glue]: space, shrink, stretch *)
  Definition para_default : para :=
    mkPara 800 10000 10 (nz 800) n0 1 []
      (mkGlue n0 n0 n0 Normal Normal) (mkGlue n0 n0 n0 Normal Normal)
      (mkGlue n0 n0 n1 Normal Fil)
      (mkGlue (nz 12) n0 (nz 2) Normal Normal) (mkGlue (nz 3) (nz (-1)) n0 Normal Normal)
      (nz 2) (nz (-10000)).

  Variable P : para.

  (** [std::abs(float)], up to the sign of a zero *)
  Definition nabs (x : N) : N := if nltb x n0 then nopp x else x.

  (** src/linebreaks.cpp:63-66. [hangafter] is not INT_MIN (its negation would
      overflow). *)
  Definition hangindentAppliesToLine (n : nat) : bool :=
    (((p_hangafter P <? 0) && (Z.of_nat n <? - p_hangafter P))
     || ((0 <=? p_hangafter P) && (p_hangafter P <=? Z.of_nat n)))%Z.

  (** [parshape.at(n)], the last one if there are fewer *)
  Definition parshape_at (n : nat) : N * N :=
    if (length (p_parshape P) <=? n)%nat then last (p_parshape P) (n0, n0)
    else nth n (p_parshape P) (n0, n0).

  (** src/linebreaks.cpp:68-82 [linelength] *)
  Definition linelength (n : nat) : N :=
    match p_parshape P with
    | _ :: _ => snd (parshape_at n)
    | [] =>
        if nonzero (p_hangindent P) && hangindentAppliesToLine n
        then nsub (p_hsize P) (nabs (p_hangindent P))
        else p_hsize P
    end.

  (** include/tex/linebreaks.h:49-56 [Totals] *)
  Record ltotals := mkLT { lt_width : N; lt_stretch : totals N; lt_shrink : totals N }.
  Definition ltotals0 : ltotals := mkLT n0 no_totals no_totals.

  (** include/tex/linebreaks.h:58-69 [Breakpoint]; an iterator is an index into
      the list *)
  Inductive bp : Type :=
  | mkBp (pos : nat) (dem : Z) (line : nat) (fit : fitness) (tot : ltotals) (prev : option bp).
  Definition bp_pos (b : bp) := let '(mkBp p _ _ _ _ _) := b in p.
  Definition bp_dem (b : bp) := let '(mkBp _ d _ _ _ _) := b in d.
  Definition bp_line (b : bp) := let '(mkBp _ _ l _ _ _) := b in l.
  Definition bp_fit (b : bp) := let '(mkBp _ _ _ f _ _) := b in f.
  Definition bp_tot (b : bp) := let '(mkBp _ _ _ _ t _) := b in t.
  Definition bp_prev (b : bp) := let '(mkBp _ _ _ _ _ p) := b in p.

  (** src/linebreaks.cpp:480-493 *)
  Definition isDiscardable (n : node N) : bool :=
    match n with NKern _ | NGlue _ | NPenalty _ => true | _ => false end.
  Definition isForcedLinebreak (n : node N) : bool :=
    match n with NPenalty p => (p <=? -10000)%Z | _ => false end.
  Definition isForbiddenLinebreak (n : node N) : bool :=
    match n with NPenalty p => (10000 <=? p)%Z | _ => false end.
  Definition is_box (n : node N) : bool :=
    match box_metrics n with Some _ => true | None => false end.

  (** src/linebreaks.cpp:213-216 [computeBadness] *)
  Definition computeBadness (r : N) : Z := Z.min (pw_cube pw r) 10000.

  (** src/linebreaks.cpp:218-228 [getFitnessClass(float)] *)
  Definition getFitnessClass (r : N) : fitness :=
    if nltb r (nlit (-1 # 2)) then Tight
    else if nleb r (nlit (1 # 2)) then Decent
    else if nleb r n1 then Loose
    else VeryLoose.

  (** src/linebreaks.cpp:259-275 *)
  Definition shrinkTotals (l r : glue N) : totals N :=
    add_order (g_shrinkOrder r) (g_shrink r) (add_order (g_shrinkOrder l) (g_shrink l) no_totals).
  Definition stretchTotals (l r : glue N) : totals N :=
    add_order (g_stretchOrder r) (g_stretch r) (add_order (g_stretchOrder l) (g_stretch l) no_totals).

  (** src/linebreaks.cpp:277-312 [computeGlueRatio] *)
  Definition computeGlueRatio (sum active : ltotals) (current_line : nat) : N :=
    let width := nsub (lt_width sum) (lt_width active) in
    let width := nsub width (g_space (p_leftskip P)) in
    let width := nsub width (g_space (p_rightskip P)) in
    let line_length := linelength current_line in
    if nltb width line_length then
      let diff := totals_sub (totals_add (lt_stretch sum) (stretchTotals (p_leftskip P) (p_rightskip P)))
                             (lt_stretch active) in
      if negb (gorder_eqb (totals_order diff) Normal) then n0
      else if nltb n0 (t_normal diff) then ndiv (nsub line_length width) (t_normal diff)
      else nz 10000
    else if nltb line_length width then
      let diff := totals_sub (totals_add (lt_shrink sum) (shrinkTotals (p_leftskip P) (p_rightskip P)))
                             (lt_shrink active) in
      if negb (gorder_eqb (totals_order diff) Normal) then n0
      else if nltb n0 (t_normal diff) then ndiv (nsub line_length width) (t_normal diff)
      else nz 10000
    else n0.

  (** lines 105-107, 111 (and 323-325, 329): one item added to the totals *)
  Definition add_glue (s : ltotals) (g : glue N) : ltotals :=
    let (sh, st) := accumulate g (lt_shrink s) (lt_stretch s) in
    mkLT (nadd (lt_width s) (g_space g)) st sh.
  Definition add_width (s : ltotals) (x : N) : ltotals :=
    mkLT (nadd (lt_width s) x) (lt_stretch s) (lt_shrink s).

  (** src/linebreaks.cpp:314-338 [squeezeDiscardables]; [l] is the list from the
      breakpoint on, [first] is [it == breakpointpos] *)
  Fixpoint squeezeDiscardables (sum : ltotals) (first : bool) (l : list (node N)) : ltotals :=
    match l with
    | [] => sum
    | n :: r =>
        match n with
        | NGlue g => squeezeDiscardables (add_glue sum g) false r
        | NKern x => squeezeDiscardables (add_width sum x) false r
        | _ =>
            if is_box n || (negb first && isForcedLinebreak n) then sum
            else squeezeDiscardables sum false r
        end
    end.

  (** src/linebreaks.cpp:340-344, 376-381: the four candidates; [None] is
      [{nullptr, INT_MAX}] *)
  Definition cands : Type := fitness -> option (bp * Z).
  Definition no_cands : cands := fun _ => None.
  Definition cand_dem (c : option (bp * Z)) : Z :=
    match c with Some (_, d) => d | None => int_max end.

  Definition node_penalty (n : node N) : Z := match n with NPenalty p => p | _ => 0%Z end.

  (** [-1 <= ratio && ratio <= maxratio] *)
  Definition feasible (ratio : N) : bool := nleb (nz (-1)) ratio && pw_within pw (p_tolerance P) ratio.

  (** src/linebreaks.cpp:398-407: the demerits of a break after [active] *)
  Definition newDemerits (n : node N) (ratio : N) (active : bp) : result Z :=
    do d <- computeDemerits (p_linepenalty P) (computeBadness ratio) (node_penalty n);
    do d <- (if checkCompatibility (getFitnessClass ratio) (bp_fit active) then Ok d
             else ck (d + p_adjdemerits P)%Z);
    ck (d + bp_dem active)%Z.

  (** src/linebreaks.cpp:387-413: the body of the inner loop; returns whether the
      active breakpoint stays, and the candidates *)
  Definition consider (n : node N) (sum : ltotals) (line : nat) (active : bp) (c : cands)
    : result (bool * cands) :=
    let ratio := computeGlueRatio sum (bp_tot active) line in
    let keep := negb (nltb ratio (nz (-1)) || isForcedLinebreak n) in
    if feasible ratio then
      do d <- newDemerits n ratio active;
      let fc := getFitnessClass ratio in
      if (d <? cand_dem (c fc))%Z then
        Ok (keep, fun f => if fitness_eqb f fc then Some (active, d) else c f)
      else Ok (keep, c)
    else Ok (keep, c).

  (** src/linebreaks.cpp:421-431: the new breakpoints, in order *)
  Definition new_bps (pos : nat) (tot : ltotals) (c : cands) : list bp :=
    flat_map (fun f =>
      match c f with
      | Some (a, d) =>
          if (d <? int_max)%Z then [mkBp pos d (S (bp_line a)) f tot (Some a)] else []
      | None => []
      end) [Tight; Decent; Loose; VeryLoose].

  Definition keep_if (k : bool) (a : bp) : list bp := if k then [a] else [].

  (** src/linebreaks.cpp:374-432: both loops in one; [line] and [c] are the
      current group. The [assert] of line 416 fails when the next group has a
      smaller line number. *)
  Fixpoint try_loop (n : node N) (sum tot : ltotals) (pos : nat)
      (line : nat) (c : cands) (act : list bp) : result (list bp) :=
    match act with
    | [] => Ok (new_bps pos tot c)
    | a :: r =>
        if (bp_line a =? line)%nat then
          do (k, c') <- consider n sum line a c;
          do out <- try_loop n sum tot pos line c' r;
          Ok (keep_if k a ++ out)
        else if (bp_line a <? line)%nat then Abort
        else
          do (k, c') <- consider n sum (bp_line a) a no_cands;
          do out <- try_loop n sum tot pos (bp_line a) c' r;
          Ok (new_bps pos tot c ++ keep_if k a ++ out)
    end.

  (** src/linebreaks.cpp:366-433 [tryBreak]; [l] is the list from [it] on *)
  Definition tryBreak (act : list bp) (pos : nat) (l : list (node N)) (n : node N) (sum : ltotals)
    : result (list bp) :=
    match act with
    | [] => Ok []
    | a :: _ => try_loop n sum (squeezeDiscardables sum true l) pos (bp_line a) no_cands act
    end.

  (** src/linebreaks.cpp:92-119: the loop of [computeFeasibleBreakpoints];
      [prevbox]: there is a previous node and it is a box *)
  Fixpoint feasible_loop (pos : nat) (prevbox : bool) (act : list bp) (sum : ltotals)
      (l : list (node N)) : result (list bp) :=
    match l with
    | [] => Ok act
    | n :: r =>
        match n with
        | NGlue g =>
            do act' <- (if prevbox then tryBreak act pos l n sum else Ok act);
            feasible_loop (S pos) false act' (add_glue sum g) r
        | NKern x => feasible_loop (S pos) false act (add_width sum x) r
        | NPenalty _ =>
            do act' <- (if isForbiddenLinebreak n then Ok act else tryBreak act pos l n sum);
            feasible_loop (S pos) false act' sum r
        | _ =>
            match box_metrics n with
            | Some m => feasible_loop (S pos) true act (add_width sum (m_width m)) r
            | None => feasible_loop (S pos) false act sum r
            end
        end
    end.

  Definition start_bp : bp := mkBp 0 0%Z 0 Tight ltotals0 None.

  (** src/linebreaks.cpp:84-122 *)
  Definition computeFeasibleBreakpoints (l : list (node N)) : result (list bp) :=
    feasible_loop 0 false [start_bp] ltotals0 l.

  (** src/linebreaks.cpp:124-135 (the choice) *)
  Definition best_bp (a : bp) (l : list bp) : bp :=
    fold_left (fun best b => if (bp_dem b <? bp_dem best)%Z then b else best) l a.

  (** src/linebreaks.cpp:137-150: the chain of previous breakpoints, reversed *)
  Fixpoint bp_chain (b : bp) : list bp :=
    match b with
    | mkBp _ _ _ _ _ prev => match prev with Some p => bp_chain p | None => [] end ++ [b]
    end.

  (** src/linebreaks.cpp:152-160 [computeBreakpoints] *)
  Definition computeBreakpoints (l : list (node N)) : result (list bp) :=
    do act <- computeFeasibleBreakpoints l;
    match act with
    | [] => Throw
    | a :: _ => Ok (bp_chain (best_bp a act))
    end.

  (** src/linebreaks.cpp:162-173 [prepare] *)
  Definition drop_last_glue (l : list (node N)) : list (node N) :=
    match last l NOther with NGlue _ => removelast l | _ => l end.
  Definition prepare (l : list (node N)) : list (node N) :=
    match l with
    | [] => []
    | _ => drop_last_glue l ++ [NPenalty 10000; NGlue (p_parfillskip P); NPenalty (-10000)]
    end.

  (** src/linebreaks.cpp:435-478 [createLine] on the items of the line *)
  Definition line_list (n : nat) (items : list (node N)) : list (node N) :=
    let core := NGlue (p_leftskip P) :: items ++ [NGlue (p_rightskip P)] in
    match p_parshape P with
    | _ :: _ => NKern (fst (parshape_at n)) :: core
    | [] =>
        if nonzero (p_hangindent P) && hangindentAppliesToLine n then
          (if nltb n0 (p_hangindent P) then [NKern (p_hangindent P)] else [])
          ++ core
          ++ (if nltb (p_hangindent P) n0 then [NKern (nabs (p_hangindent P))] else [])
        else core
    end.
  Definition line_width (n : nat) : N :=
    match p_parshape P with
    | _ :: _ => nadd (linelength n) n0
    | [] =>
        if nonzero (p_hangindent P) && hangindentAppliesToLine n
        then nadd (linelength n) (nabs (p_hangindent P))
        else linelength n
    end.
  Definition createLine (n : nat) (items : list (node N)) : lbox N :=
    hbox_to (line_list n items) (line_width n).

  (** src/linebreaks.cpp:495-499 [consumeDiscardable]: how far the iterator at
      the head of [l] goes; it is dereferenced at the end of the list too *)
  Fixpoint consumeDiscardable (pos : nat) (l : list (node N)) : result nat :=
    match l with
    | [] => UB
    | n :: r => if isDiscardable n then consumeDiscardable (S pos) r else Ok pos
    end.

  (** The range [begin, end) of a list; undefined if [end] is before [begin] *)
  Definition range (l : list (node N)) (b e : nat) : result (list (node N)) :=
    if (b <=? e)%nat then Ok (firstn (e - b) (skipn b l)) else UB.

  (** src/linebreaks.cpp:190-210: the loop of [create]; [it] is where the line
      begins, [bps] are the remaining breakpoints. The lines, with the builder
      of the vertical list. *)
  Fixpoint create_loop (l : list (node N)) (it : nat) (bps : list bp) (vb : vbuilder N)
    : result (vbuilder N) :=
    match bps with
    | [] => Ok vb
    | b :: r =>
        do items <- range l it (bp_pos b);
        let line := createLine (bp_line b - 1) items in
        let vb := vb_push_box vb (node_of Horizontal line) (b_metrics line) in
        match r with
        | [] => Ok vb
        | _ =>
            do it <- consumeDiscardable (bp_pos b) (skipn (bp_pos b) l);
            create_loop l it r vb
        end
    end.

  Definition para_builder : vbuilder N :=
    mkVB [] (p_baselineskip P) (p_lineskip P) (p_lineskiplimit P) (p_prevdepth P).

  (** src/linebreaks.cpp:185-211 [create(hlist, breakpoints)]; [std::next] of an
      empty vector is undefined *)
  Definition create_at (l : list (node N)) (bps : list bp) : result (list (node N)) :=
    match l with
    | [] => Ok []
    | _ =>
        match bps with
        | [] => UB
        | _ :: r => rmap vb_result (create_loop l 0 r para_builder)
        end
    end.

  (** src/linebreaks.cpp:175-183 [create(hlist)] *)
  Definition create (l : list (node N)) : result (list (node N)) :=
    match l with
    | [] => Ok []
    | _ => do bps <- computeBreakpoints l; create_at l bps
    end.
End LineBreaks.
Arguments pows N : clear implicits.
Arguments para N : clear implicits.
Arguments ltotals N : clear implicits.
Arguments bp N : clear implicits.
Arguments cands N : clear implicits.

(** Exact powers: [std::pow(t / 100.f, 1.f / 3.f)] is not a number for negative
    [t], so the comparison is false. *)
Definition Qc_abs (x : Qc) : Qc := if Qc_ltb x 0 then (- x)%Qc else x.
Definition Qc_cube100 (r : Qc) : Z :=
  let x := (Q2Qc (inject_Z 100) * (Qc_abs r * Qc_abs r * Qc_abs r))%Qc in
  (Qnum x / Zpos (Qden x))%Z.
Definition Qc_within (t : Z) (r : Qc) : bool :=
  (0 <=? t)%Z && (Qc_leb r 0 || Qc_leb (Q2Qc (inject_Z 100) * (r * r * r))%Qc (Q2Qc (inject_Z t))).
Definition QcPows : pows QcNum := mkPows (N := QcNum) Qc_cube100 Qc_within.
