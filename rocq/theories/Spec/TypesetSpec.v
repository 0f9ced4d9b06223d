(** What the math typesetter is expected to do. *)
From Coq Require Import List ZArith Bool Arith QArith.
From Verif.Base Require Import Result Num.
From Verif.Model Require Import Glue Box MathList MathTypeset.
From Verif.Spec Require Import MathSpec.
Import ListNotations.
Local Open Scope nat_scope.

(** * Size of a math list and kinds of nodes *)
Section Size.
  Context {N : Num}.
  Definition opt_nat {A} (f : A -> nat) (o : option A) : nat := match o with Some x => f x | None => 0 end.
  Definition opt_bool {A} (f : A -> bool) (o : option A) : bool := match o with Some x => f x | None => true end.

  Fixpoint node_size (n : mnode N) : nat :=
    match n with
    | MAtom a => Datatypes.S (match a with mkAtom _ nu sb sp _ _ =>
        opt_nat field_size nu + opt_nat field_size sb + opt_nat field_size sp end)
    | MFrac a b | MRoot a b => Datatypes.S (list_sum (map node_size a) + list_sum (map node_size b))
    | MMatrix c _ => Datatypes.S (list_sum (map (fun l => list_sum (map node_size l)) c))
    | _ => 1
    end
  with field_size (f : mfield N) : nat :=
    match f with
    | FList l => Datatypes.S (list_sum (map node_size l))
    | _ => 0
    end.
  Definition list_size (l : list (mnode N)) : nat := list_sum (map node_size l).

  (** Only nodes that may stand in a math list (TeXbook, chapter 17): atoms,
      fractions, rules, penalties, glue, kerns, style changes, boundaries (and
      roots and matrices), everywhere in the formula. A box is not one of them:
      it comes as the nucleus of an atom. *)
  Fixpoint math_only (n : mnode N) : bool :=
    match n with
    | MAtom a => match a with mkAtom _ nu sb sp _ _ =>
        opt_bool math_field nu && opt_bool math_field sb && opt_bool math_field sp end
    | MFrac a b | MRoot a b => forallb math_only a && forallb math_only b
    | MMatrix c _ => forallb (forallb math_only) c
    | MNode (NPenalty _) | MNode (NRule _) | MNode (NKern _) | MNode (NGlue _) => true
    | MNode _ => false
    | MBoundary _ | MStyle _ | MGlue _ _ => true
    end
  with math_field (f : mfield N) : bool :=
    match f with
    | FList l => forallb math_only l
    | _ => true
    end.
  Definition math_list (l : list (mnode N)) : bool := forallb math_only l.
End Size.

(** * Spaces between atoms: the table of the TeXbook, chapter 18 *)
Inductive entry : Set := No | Thin | Med | Thick | ThinP | MedP | ThickP | Never.
Definition tex_table : list (list entry) :=
  (*          Ord    Op     Bin    Rel     Open   Close  Punct  Inner *)
  [ (*Ord*)   [No;    Thin;  MedP;  ThickP; No;    No;    No;    ThinP];
    (*Op*)    [Thin;  Thin;  Never; ThickP; No;    No;    No;    ThinP];
    (*Bin*)   [MedP;  MedP;  Never; Never;  MedP;  Never; Never; MedP];
    (*Rel*)   [ThickP;ThickP;Never; No;     ThickP;No;    No;    ThickP];
    (*Open*)  [No;    No;    Never; No;     No;    No;    No;    No];
    (*Close*) [No;    Thin;  MedP;  ThickP; No;    No;    No;    ThinP];
    (*Punct*) [ThinP; ThinP; Never; ThinP;  ThinP; ThinP; ThinP; ThinP];
    (*Inner*) [ThinP; Thin;  MedP;  ThickP; ThinP; No;    ThinP; ThinP] ].
Definition tex_entry (t u : Z) : entry := nth (Z.to_nat u) (nth (Z.to_nat t) tex_table []) No.
Definition script_style (s : style) : bool :=
  match size_of s with Script | ScriptScript => true | _ => false end.

Section Emit.
  Context {N : Num}.
  Variable E : engine N.

  (** 18 mu are a quad of the symbol font in the current size *)
  Definition muskip (s : style) (space shrink stretch : Z) : glue N :=
    let unit := ndiv (f_quad (sg E s)) (nz 18) in
    let x z := if (z =? 0)%Z then n0 else nmul (nz z) unit in
    mkGlue (x space) (x shrink) (x stretch) Normal Normal.
  (** thin 3mu, medium 4mu plus 2mu minus 4mu, thick 5mu plus 5mu *)
  Definition tex_space (s : style) (t u : Z) : list (node N) :=
    let thin := [NGlue (muskip s 3 0 0)] in
    let med := [NGlue (muskip s 4 4 2)] in
    let thick := [NGlue (muskip s 5 0 5)] in
    let unless l := if script_style s then [] else l in
    match tex_entry t u with
    | No | Never => []
    | Thin => thin | Med => med | Thick => thick
    | ThinP => unless thin | MedP => unless med | ThickP => unless thick
    end.

  Definition atom_type (n : mnode N) : list Z := match n with MAtom a => [a_ty a] | _ => [] end.
  Definition types (l : list (mnode N)) : list Z := flat_map atom_type l.
  (** the type of the last atom *)
  Definition last_type (l : list (mnode N)) : option Z :=
    match rev (types l) with t :: _ => Some t | [] => None end.

  (** What each node gives, after the nodes [before] and before the nodes
      [after]; [pen t after] are the penalties after an atom of type [t]. *)
  Definition piece (pen : Z -> list (mnode N) -> list (node N)) (s : style)
      (before : list (mnode N)) (n : mnode N) (after : list (mnode N)) : list (node N) :=
    match n with
    | MAtom a =>
        match last_type before with Some t => tex_space s t (a_ty a) | None => [] end
        ++ [nucleus_of a] ++ pen (a_ty a) after
    | MNode x => match x with NGlue _ | NOther => [] | _ => [x] end
    | _ => []
    end.
  Fixpoint pieces pen s (before l : list (mnode N)) : list (node N) :=
    match l with
    | [] => []
    | n :: r => piece pen s before n r ++ pieces pen s (before ++ [n]) r
    end.

  (** Penalties as they should be (TeXbook, chapter 18) and as they are. *)
  Definition next_is_penalty (after : list (mnode N)) : bool :=
    match after with MNode (NPenalty _) :: _ => true | _ => false end.
  Definition next_is_rel (after : list (mnode N)) : bool :=
    match after with MAtom a :: _ => (a_ty a =? Rel)%Z | _ => false end.
  Definition penalty_rule (bin_type : Z) (p : penalties) (t : Z) (after : list (mnode N)) : list (node N) :=
    if pen_on p && negb (match after with [] => true | _ => false end) && negb (next_is_penalty after) then
      (if ((t =? bin_type) && negb (pen_bin p =? 0))%Z then [NPenalty (pen_bin p)] else []) ++
      (if ((t =? Rel) && negb (pen_rel p =? 0))%Z && negb (next_is_rel after)
       then [NPenalty (pen_rel p)] else [])
    else [].
  Definition tex_penalties := penalty_rule Bin.
End Emit.

(** * The classes of the atoms and the whole horizontal list *)
(** A place in the list: an atom of some class, a node that is copied, something
    that gives no node (glue), a boundary *)
Inductive slot (N : Num) : Type :=
| SAtom (t : Z) | SNode (x : node N) | SNothing | SBoundary (y : option sym).
Arguments SAtom {N}. Arguments SNode {N}. Arguments SNothing {N}. Arguments SBoundary {N}.

(** classes that stop a binary operator before them from being one *)
Definition closing (t : Z) : bool := match t with 3 | 5 | 6 => true | _ => false end%Z.
(** overlined, underlined, accented, radical and centred atoms count as ordinary *)
Definition plain_class (t : Z) : Z := if (7 <? t)%Z then 0%Z else t.

Section Slots.
  Context {N : Num}.

  (** the class of the next atom, root or matrix; fractions are passed over *)
  Fixpoint next_class (l : list (mnode N)) : option Z :=
    match l with
    | [] => None
    | MAtom a :: _ => Some (a_ty a)
    | MRoot _ _ :: _ | MMatrix _ _ :: _ => Some 0%Z
    | _ :: r => next_class r
    end.
  (** the class in the end of an atom of class [t] before the nodes [r] *)
  Definition final_class (t : Z) (r : list (mnode N)) : Z :=
    match t, next_class r with
    | 2%Z, Some u => if closing u then 0%Z else 2%Z
    | _, _ => plain_class t
    end.
  Definition glue_or_kern (n : mnode N) : bool :=
    match n with MGlue _ _ | MNode (NGlue _) | MNode (NKern _) => true | _ => false end.
  Fixpoint expected (s : style) (l : list (mnode N)) : list (slot N) :=
    match l with
    | [] => []
    | MAtom a :: r => SAtom (final_class (a_ty a) r) :: expected s r
    | MFrac _ _ :: r => SAtom 7%Z :: expected s r
    | MRoot _ _ :: r | MMatrix _ _ :: r => SAtom 0%Z :: expected s r
    | MBoundary y :: r => SBoundary y :: expected s r
    | MStyle s' :: r => expected s' r
    | MGlue OrNonscript _ :: r =>
        SNothing :: match r with
                    | n :: r' => if glue_or_kern n && script_style s then expected s r' else expected s r
                    | [] => []
                    end
    | MGlue _ _ :: r | MNode (NGlue _) :: r => SNothing :: expected s r
    | MNode x :: r => SNode x :: expected s r
    end.
  (** delimiters at both ends *)
  Definition delimited (l : list (slot N)) : list (slot N) :=
    match l with
    | [SBoundary _] => [SAtom 5%Z]
    | SBoundary _ :: r => SAtom 4%Z :: removelast r ++ [SAtom 5%Z]
    | _ => l
    end.
  Definition classes (l : list (slot N)) : list Z :=
    flat_map (fun c => match c with SAtom t => [t] | _ => [] end) l.

  Definition penalty_next (after : list (slot N)) : bool :=
    match after with SNode (NPenalty _) :: _ => true | _ => false end.
  Definition rel_next (after : list (slot N)) : bool :=
    match after with SAtom t :: _ => (t =? Rel)%Z | _ => false end.
  (** the penalties after a place: [binoppenalty] after an atom of class
      [bin_type], [relpenalty] after a relation, unless it is the last place, or a
      penalty or (for a relation) another relation comes next *)
  Definition slot_penalty (bin_type : Z) (p : penalties) (t : Z) (after : list (slot N)) : list (node N) :=
    match after with
    | [] => []
    | _ =>
        if pen_on p && negb (penalty_next after) then
          (if ((t =? bin_type) && negb (pen_bin p =? 0))%Z then [NPenalty (pen_bin p)] else []) ++
          (if ((t =? Rel) && negb (pen_rel p =? 0))%Z && negb (rel_next after)
           then [NPenalty (pen_rel p)] else [])
        else []
    end.
  (** The horizontal list for places and the boxes of the atoms, in order;
      [before] is the class of the atom before *)
  Fixpoint render (E : engine N) (bin_type : Z) (p : penalties) (s : style) (before : option Z)
      (l : list (slot N)) (boxes : list (node N)) : list (node N) :=
    match l with
    | [] => []
    | SAtom t :: r =>
        match boxes with
        | [] => []
        | b :: bs =>
            match before with Some u => tex_space E s u t | None => [] end ++
            b :: slot_penalty bin_type p t r ++ render E bin_type p s (Some t) r bs
        end
    | SNode x :: r => x :: render E bin_type p s before r boxes
    | _ :: r => render E bin_type p s before r boxes
    end.

  (** The nodes that give boxes, each with the style at its place *)
  Fixpoint parts (s : style) (l : list (mnode N)) : list (style * mnode N) :=
    match l with
    | [] => []
    | MStyle s' :: r => parts s' r
    | e :: r =>
        match e with
        | MAtom _ | MFrac _ _ | MRoot _ _ | MMatrix _ _ => [(s, e)]
        | _ => []
        end ++ parts s r
    end.
  (** the style at the end of a list *)
  Fixpoint end_style (s : style) (l : list (mnode N)) : style :=
    match l with
    | [] => s
    | MStyle s' :: r => end_style s' r
    | _ :: r => end_style s r
    end.
  (** a delimiter of height [h], on the axis; none is an empty box *)
  Definition delimiter (E : engine N) (s : style) (y : option sym) (h : N) (b : node N) : Prop :=
    exists m r o x, b = NList Horizontal m (nsub (nmul (nlit (1 # 2)%Q) (nsub (m_height m) (m_depth m))) (f_axis (sg E s))) r o [x] /\
      match y with Some y => x = e_delimiter E y h | None => x = NList Horizontal (mkMetrics n0 n0 n0) n0 n0 Normal [] end.
  (** The dimensions of what stands at some places, given the boxes of the atoms *)
  Definition dims (n : node N) : list (metrics N) :=
    match box_metrics n with Some m => [m] | None => [] end.
  Fixpoint extents (l : list (slot N)) (boxes : list (node N)) : list (metrics N) :=
    match l with
    | [] => []
    | SAtom _ :: r => match boxes with b :: bs => dims b ++ extents r bs | [] => [] end
    | SNode x :: r => dims x ++ extents r boxes
    | _ :: r => extents r boxes
    end.
  (** The size of the delimiters around something that reaches [up] above and
      [down] below the baseline (TeXbook, page 152 and appendix G, rule 19; 901 and
      a half point are the factor and the shortfall) *)
  Definition fence (axis up down : N) : N :=
    let reach := nmax (nsub up axis) (nadd down axis) in
    nmax (ndiv (nmul (nz 901) reach) (nz 500)) (nsub (nmul (nz 2) reach) (nlit (1 # 2))).
  (** heights and depths are added up *)
  Definition fence_around (axis : N) (ms : list (metrics N)) : N :=
    fence axis (fold_left nadd (map m_height ms) n0) (fold_left nadd (map m_depth ms) n0).
  (** The boxes of the atoms: those of the nodes and one delimiter at each end *)
  Definition all_boxes (E : engine N) (s : style) (l : list (slot N)) (inner boxes : list (node N)) : Prop :=
    let h := fence_around (f_axis (sg E s)) (extents l inner) in
    match l with
    | [SBoundary y] => exists b, boxes = [b] /\ delimiter E s y h b
    | SBoundary y :: r => exists z b c, last r SNothing = SBoundary z /\
        boxes = b :: inner ++ [c] /\ delimiter E s y h b /\ delimiter E s z h c
    | _ => boxes = inner
    end.
End Slots.

(** TeX's rules 5 and 6: where a binary operator may stand *)
Definition bins_between (ts : list Z) : Prop :=
  forall i, nth_error ts i = Some Bin ->
  (exists j t, i = Datatypes.S j /\ nth_error ts j = Some t /\ ~ In t [Bin; Op; Rel; Open; Punct]) /\
  (exists u, nth_error ts (Datatypes.S i) = Some u /\ ~ In u [Rel; Close; Punct]).

(** Formulas without scripts, without operators that take limits and without math
    glue; the lists inside atoms are free *)
Inductive scriptless {N : Num} : mnode N -> Prop :=
| sl_atom a : a_sub a = None -> a_sup a = None -> (a_ty a = Op -> a_lim a = NoLimits) -> scriptless (MAtom a)
| sl_frac n d : Forall scriptless n -> Forall scriptless d -> scriptless (MFrac n d)
| sl_root n d : Forall scriptless n -> Forall scriptless d -> scriptless (MRoot n d)
| sl_matrix c k : Forall (Forall scriptless) c -> scriptless (MMatrix c k)
| sl_boundary y : scriptless (MBoundary y)
| sl_style s : scriptless (MStyle s)
| sl_glue o g : o <> OrMskip -> scriptless (MGlue o g)
| sl_node n : scriptless (MNode n).

(** Math glue: 18 mu are one quad of the symbol font in the size of the style;
    infinite stretching and shrinking are not lengths. *)
Definition mu_glue {N : Num} (E : engine N) (s : style) (g : glue N) : glue N :=
  let mu x := nmul x (ndiv (f_quad (e_params E 2 (fsize_of s))) (nz 18)) in
  let finite o x := match o with Normal => mu x | _ => x end in
  mkGlue (mu (g_space g)) (finite (g_shrinkOrder g) (g_shrink g)) (finite (g_stretchOrder g) (g_stretch g))
         (g_shrinkOrder g) (g_stretchOrder g).
(** The glue in a formula, place by place, after math glue has been converted; the
    node after a nonscript glue in a script is left as it is *)
Definition glue_at {N : Num} (n : mnode N) : option (glue N) :=
  match n with MGlue _ g | MNode (NGlue g) => Some g | _ => None end.
Fixpoint converted {N : Num} (E : engine N) (s : style) (l : list (mnode N)) : list (option (glue N)) :=
  match l with
  | [] => []
  | MStyle s' :: r => None :: converted E s' r
  | MGlue OrMskip g :: r => Some (mu_glue E s g) :: converted E s r
  | MGlue OrNonscript g :: r =>
      Some g :: match r with
                | n :: r' => if glue_or_kern n && script_style s then glue_at n :: converted E s r' else converted E s r
                | [] => []
                end
  | n :: r => glue_at n :: converted E s r
  end.
(** a node that is kept: a kern, a rule, a penalty *)
Definition lasting {N : Num} (x : node N) : bool :=
  match x with NKern _ | NRule _ | NPenalty _ => true | _ => false end.
Definition no_nonscript {N : Num} (n : mnode N) : bool :=
  match n with MGlue OrNonscript _ => false | _ => true end.
