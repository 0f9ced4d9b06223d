(** Line breaking as an optimisation problem, on positions of a list. *)
From Coq Require Import List ZArith Bool QArith Qcanon Arith.
From Verif.Base Require Import Num.
From Verif.Model Require Import Glue Box LineBreaks.
From Verif.Spec Require Import BoxSpec.
Import ListNotations.

Section Spec.
  Context {N : Num}.
  Variable l : list (node N).

  Definition box_at (i : nat) : Prop :=
    match nth_error l i with Some (NChar _ _ | NBox _ | NRule _ | NList _ _ _ _ _ _) => True | _ => False end.
  Definition forced_at (i : nat) : Prop :=
    match nth_error l i with Some (NPenalty p) => (p <= -10000)%Z | _ => False end.

  (** Where a line may end: at glue right after a box, or at a penalty below
      10000. *)
  Definition legal (i : nat) : Prop :=
    match nth_error l i with
    | Some (NGlue _) => exists j, i = S j /\ box_at j
    | Some (NPenalty p) => (p < 10000)%Z
    | _ => False
    end.

  (** Where the material of a line begins: at 0 for the first line, otherwise at
      the first box, or forced break, after the previous break [a]. *)
  Definition line_begin (a : option nat) (e : nat) : Prop :=
    match a with
    | None => e = 0%nat
    | Some a =>
        (a <= e <= length l)%nat /\
        (forall i, (a <= i < e)%nat -> ~ box_at i /\ (i = a \/ ~ forced_at i)) /\
        (e = length l \/ box_at e \/ (e <> a /\ forced_at e))
    end.

  (** Width, stretch and shrink of the items before position [i]. *)
  Definition width_upto (i : nat) : N := sum (flat_map item_width (firstn i l)).
  Definition stretch_upto (i : nat) (o : gorder) : N := stretch_total (firstn i l) o.
  Definition shrink_upto (i : nat) (o : gorder) : N := shrink_total (firstn i l) o.

  Variable P : para N.

  (** The finite glue available, or [None] if fil or fill glue is available. *)
  Definition available (upto : nat -> gorder -> N) (skips : gorder -> N) (e b : nat) : option N :=
    let d o := nsub (nadd (upto b o) (skips o)) (upto e o) in
    if nonzero (d Fil) || nonzero (d Fill) then None else Some (d Normal).

  Definition skip_list : list (node N) := [NGlue (p_leftskip P); NGlue (p_rightskip P)].

  Definition ratio_of (missing : N) (glue : option N) : N :=
    match glue with
    | None => n0
    | Some g => if nltb n0 g then ndiv missing g else nz 10000
    end.

  (** The glue ratio the line breaker gives to line number [n] made of the items
      [e .. b-1]. *)
  Definition line_ratio (n e b : nat) : N :=
    let w := nsub (nsub (nsub (width_upto b) (width_upto e)) (g_space (p_leftskip P)))
                  (g_space (p_rightskip P)) in
    let len := linelength P n in
    if nltb w len then ratio_of (nsub len w) (available stretch_upto (stretch_total skip_list) e b)
    else if nltb len w then ratio_of (nsub len w) (available shrink_upto (shrink_total skip_list) e b)
    else n0.

  Variable pw : pows N.

  Definition ratio_ok (r : N) : Prop :=
    nleb (nz (-1)) r = true /\ pw_within pw (p_tolerance P) r = true.

  Definition after (a : option nat) (c : nat) : Prop :=
    match a with None => True | Some a => (a < c)%nat end.

  (** No line from [a] can pass the legal break [c]: it is forced or the line is
      already overfull there. *)
  Definition barrier (n e c : nat) : Prop :=
    legal c /\ (forced_at c \/ nltb (line_ratio n e c) (nz (-1)) = true).

  (** A line number [n] from break [a] (or the start) to break [b]. *)
  Definition line_ok (n : nat) (a : option nat) (e b : nat) : Prop :=
    line_begin a e /\ after a b /\ legal b /\ ratio_ok (line_ratio n e b) /\
    forall c, after a c -> (c < b)%nat -> ~ barrier n e c.

  (** Fitness class of a ratio: below -1/2, up to 1/2, up to 1, above 1. *)
  Definition fitness_of (r : N) : fitness :=
    if nltb r (nlit (-1 # 2)) then Tight
    else if nleb r (nlit (1 # 2)) then Decent
    else if nleb r (nlit (inject_Z 1)) then Loose
    else VeryLoose.

  Definition adjacent (a b : fitness) : bool :=
    match a, b with
    | Tight, (Loose | VeryLoose) | Decent, VeryLoose
    | (Loose | VeryLoose), Tight | VeryLoose, Decent => false
    | _, _ => true
    end.

  (** Demerits of a line: TeX's formula, plus adjdemerits. *)
  Definition line_demerits (r : N) (b : nat) (prev : fitness) : Z :=
    let s := (p_linepenalty P + Z.min (pw_cube pw r) 10000)%Z in
    let p := match nth_error l b with Some (NPenalty p) => p | _ => 0%Z end in
    ((if (0 <=? p) && (p <? 10000) then s * s + p * p
      else if (-10000 <? p) && (p <? 0) then s * s - p * p
      else s * s)
     + (if adjacent (fitness_of r) prev then 0 else p_adjdemerits P))%Z.

  Definition last_break (bs : list nat) : option nat :=
    match bs with [] => None | b :: _ => Some b end.

  (** Ways of breaking the list up to some break, last break first, with the
      fitness of the last line and the total demerits, which are below INT_MAX at
      every break. *)
  Inductive breaking : list nat -> fitness -> Z -> Prop :=
  | br_start : breaking [] Tight 0%Z
  | br_line bs f d e b :
      breaking bs f d ->
      line_ok (length bs) (last_break bs) e b ->
      let r := line_ratio (length bs) e b in
      let d' := (d + line_demerits r b f)%Z in
      (d' < int_max)%Z ->
      breaking (b :: bs) (fitness_of r) d'.

  (** A breaking that can end where it ends: nothing after its last break stops
      the line that begins there. If the list ends with a forced break this
      means that the last break is that one ([complete_forced] in the proofs). *)
  Definition complete (bs : list nat) : Prop :=
    forall e c, line_begin (last_break bs) e -> after (last_break bs) c -> ~ barrier (length bs) e c.

  Definition discardable_at (i : nat) : Prop :=
    match nth_error l i with Some (NKern _ | NGlue _ | NPenalty _) => True | _ => False end.

  (** The items of positions [b .. e-1]. *)
  Definition items (b e : nat) : list (node N) := firstn (e - b) (skipn b l).

  (** The lines cut out of the list by increasing breaks: each line runs from
      where the previous one left off to its break; after a break the discardable
      items are skipped. *)
  Inductive cut : nat -> list nat -> list (list (node N)) -> Prop :=
  | cut_none it : cut it [] []
  | cut_last it b : (it <= b)%nat -> cut it [b] [items it b]
  | cut_more it b it' bs rest :
      (it <= b)%nat -> (b <= it')%nat ->
      (forall i, (b <= i < it')%nat -> discardable_at i) ->
      (it' < length l)%nat -> ~ discardable_at it' ->
      bs <> [] -> cut it' bs rest ->
      cut it (b :: bs) (items it b :: rest).

  (** Between two consecutive breaks there is something to set. *)
  Inductive nonempty_lines : list nat -> Prop :=
  | nel_0 : nonempty_lines []
  | nel_1 b : nonempty_lines [b]
  | nel_2 a b bs :
      (exists i, (a <= i < b)%nat /\ ~ discardable_at i) -> nonempty_lines (b :: bs) ->
      nonempty_lines (a :: b :: bs).

  Definition keeps (n : node N) : bool :=
    match n with NKern _ | NGlue _ | NPenalty _ => false | _ => true end.
End Spec.

(** All widths are nonnegative and no glue can shrink below 0 or without limit. *)
Definition rigid_item (n : node QcNum) : Prop :=
  match n with
  | NChar _ m | NBox m | NRule m | NList _ m _ _ _ _ => (0 <= m_width m)%Qc
  | NKern x => (0 <= x)%Qc
  | NGlue g => (0 <= g_shrink g <= g_space g)%Qc /\ g_shrinkOrder g = Normal
  | _ => True
  end.

(** Penalties below 10000 are at most [pm] in absolute value. *)
Definition penalties_within {N : Num} (l : list (node N)) (pm : Z) : Prop :=
  forall p, In (NPenalty p) l -> (-10000 < p < 10000)%Z -> (Z.abs p <= pm)%Z.

(** Largest demerits of a line whose badness is at most [B]. *)
Definition line_bound {N : Num} (P : para N) (B pm : Z) : Z :=
  ((Z.abs (p_linepenalty P) + B) * (Z.abs (p_linepenalty P) + B) + pm * pm + Z.abs (p_adjdemerits P))%Z.

(** Breakings where a line only has to be within tolerance and contain no forced
    break, exact arithmetic. *)
Section Simple.
  Variable l : list (node QcNum).
  Variable P : para QcNum.

  Definition simple_line (n : nat) (a : option nat) (e b : nat) : Prop :=
    line_begin l a e /\ after a b /\ legal l b /\ ratio_ok P QcPows (line_ratio l P n e b) /\
    forall c, after a c -> (c < b)%nat -> ~ forced_at l c.

  Inductive simple_breaking : list nat -> fitness -> Z -> Prop :=
  | sb_start : simple_breaking [] Tight 0%Z
  | sb_line bs f d e b :
      simple_breaking bs f d ->
      simple_line (length bs) (last_break bs) e b ->
      simple_breaking (b :: bs)
        (fitness_of (line_ratio l P (length bs) e b))
        (d + line_demerits l P QcPows (line_ratio l P (length bs) e b) b f)%Z.
End Simple.

(** Ordinary paragraph material: boxes, kerns, penalties and glue with finite,
    nonnegative stretch; nothing has a negative width. *)
Definition ordinary (n : node QcNum) : Prop :=
  match n with
  | NChar _ m | NBox m | NRule m | NList _ m _ _ _ _ => (0 <= m_width m)%Qc
  | NKern x => (0 <= x)%Qc
  | NGlue g => (0 <= g_space g)%Qc /\ (0 <= g_stretch g)%Qc /\ g_stretchOrder g = Normal
  | NPenalty _ => True
  | NOther => False
  end.

Definition finite_glue (n : node QcNum) : Prop :=
  match n with
  | NGlue g => g_stretchOrder g = Normal /\ g_shrinkOrder g = Normal
  | _ => True
  end.

(** The kern before and after the text of line [n], and how much they take. *)
Section Indent.
  Context {N : Num}.
  Variable P : para N.
  (** Does the hanging indentation apply to line [n]? *)
  Definition hangs (n : nat) : Prop :=
    nonzero (p_hangindent P) = true /\
    ((p_hangafter P < 0 /\ Z.of_nat n < - p_hangafter P) \/ (0 <= p_hangafter P <= Z.of_nat n))%Z.
End Indent.
