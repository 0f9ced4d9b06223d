(** Line breaking: C34 - C43. *)
From Coq Require Import List QArith Qcanon ZArith Bool Arith Lia Sorted.
From Verif.Base Require Import Result Num.
From Verif.Model Require Import Glue Box ListBuilders LineBreaks.
From Verif.Spec Require Import BoxSpec LineBreakSpec.
From Verif.Proofs Require Import LineBreakProofs LineBreakOpt LineBreakCreate LineBreakBound LineBreakQc LineBreakSafe LineBreakMore ParagraphSpacing.
Import ListNotations.

(** Shorthands of the examples: default settings with another hsize, boxes, and
    interword glue. *)
Definition z (x : Z) : QcNum := Q2Qc (inject_Z x).
Definition P_of (hsize : Z) : para QcNum :=
  let d := para_default (N := QcNum) in
  mkPara (p_tolerance d) (p_adjdemerits d) (p_linepenalty d) (z hsize) (p_hangindent d) (p_hangafter d) []
    (p_leftskip d) (p_rightskip d) (p_parfillskip d) (p_baselineskip d) (p_lineskip d) (p_lineskiplimit d) (p_prevdepth d).
Definition with_skips (l r : glue QcNum) (P : para QcNum) : para QcNum :=
  mkPara (p_tolerance P) (p_adjdemerits P) (p_linepenalty P) (p_hsize P) (p_hangindent P) (p_hangafter P) (p_parshape P)
    l r (p_parfillskip P) (p_baselineskip P) (p_lineskip P) (p_lineskiplimit P) (p_prevdepth P).
Definition with_hang (i : Z) (a : Z) (s : list (QcNum * QcNum)) (P : para QcNum) : para QcNum :=
  mkPara (p_tolerance P) (p_adjdemerits P) (p_linepenalty P) (p_hsize P) (z i) a s
    (p_leftskip P) (p_rightskip P) (p_parfillskip P) (p_baselineskip P) (p_lineskip P) (p_lineskiplimit P) (p_prevdepth P).
Definition w (x : Z) : node QcNum := NBox (mkMetrics (z 5) (z 1) (z x)).
Definition sp : node QcNum := NGlue (mkGlue (z 10) (z 3) (z 5) Normal Normal).
Definition pen (p : Z) : node QcNum := NPenalty p.
(** Seven words; lines of 100 hold about three. *)
Definition words : list (node QcNum) :=
  [w 27; sp; w 28; sp; w 26; sp; w 30; sp; w 24; pen 50; w 3; sp; w 27; sp; w 20; sp].
Definition P100 := P_of 100.
Definition text := prepare P100 words.

Definition is_ok {A} (r : result A) : bool := match r with Ok _ => true | _ => false end.
Definition breaks (P : para QcNum) (l : list (node QcNum)) :=
  rmap (map (fun b => (bp_pos b, bp_line b, bp_dem b))) (computeBreakpoints QcPows P l).

(** C34, any arithmetic *)
Theorem C34_legal_ordered :
  forall (N : Num) (pw : pows N) (P : para N) (l : list (node N)) bps,
    computeBreakpoints pw P l = Ok bps ->
    exists bs, map bp_pos bps = 0%nat :: bs /\ StronglySorted lt bs /\ Forall (legal l) bs /\
      map bp_line bps = seq 0 (length bps).
Proof. exact (fun N pw P l bps => legal_ordered pw P l bps). Qed.

Example C34_case :
  breaks P100 text = Ok [(0, 0, 0%Z); (5, 1, 100%Z); (13, 2, 1621%Z); (17, 3, 1721%Z)]%nat.
Proof. vm_compute. reflexivity. Qed.

(** C35, any arithmetic *)
Theorem C35_forced_taken :
  forall (N : Num) (pw : pows N) (P : para N) (l : list (node N)) bps i,
    computeBreakpoints pw P l = Ok bps -> forced_at l i -> In i (tl (map bp_pos bps)).
Proof. exact (fun N pw P l bps i => forced_chosen pw P l bps i). Qed.

Theorem C35_prepared_last :
  forall (N : Num) (pw : pows N) (P : para N) (xs : list (node N)) bps,
    xs <> [] -> computeBreakpoints pw P (prepare P xs) = Ok bps ->
    bp_pos (last bps start_bp) = pred (length (prepare P xs)).
Proof. exact (fun N pw P xs bps => prepared_last pw P xs bps). Qed.

Example C35_case :
  let l := prepare P100 [w 100; pen (-10000); w 46; sp; w 45; pen (-10000); w 20] in
  breaks P100 l = Ok [(0, 0, 0%Z); (1, 1, 100%Z); (5, 2, 269%Z); (9, 3, 369%Z)]%nat /\
  forced_at l 1 /\ forced_at l 5 /\ forced_at l 9.
Proof. split; [vm_compute; reflexivity|]. cbn. lia. Qed.

(** C36, any arithmetic *)
Theorem C36_lines_feasible :
  forall (N : Num) (pw : pows N) (P : para N) (l : list (node N)) bps i x y,
    computeBreakpoints pw P l = Ok bps ->
    nth_error bps i = Some x -> nth_error bps (S i) = Some y ->
    exists e, line_begin l (if (i =? 0)%nat then None else Some (bp_pos x)) e /\
      let r := line_ratio l P i e (bp_pos y) in
      ratio_ok P pw r /\ bp_fit y = fitness_of r /\
      bp_dem y = (bp_dem x + line_demerits l P pw r (bp_pos y) (bp_fit x))%Z.
Proof. exact (fun N pw P l bps i x y => chosen_lines pw P l bps i x y). Qed.

Theorem C36_start :
  forall (N : Num) (pw : pows N) (P : para N) (l : list (node N)) bps,
    computeBreakpoints pw P l = Ok bps ->
    exists x, nth_error bps 0 = Some x /\ bp_dem x = 0%Z /\ bp_fit x = Tight /\ bp_pos x = 0%nat.
Proof. exact (fun N pw P l bps => chosen_first pw P l bps). Qed.

(** C36, exact arithmetic: the tolerance bounds the badness. *)
Theorem C36_tolerance :
  forall (P : para QcNum) (r : Qc),
    ratio_ok P QcPows r <->
    (0 <= p_tolerance P)%Z /\ (Q2Qc (inject_Z (-1)) <= r)%Qc /\
    (r <= 0 \/ Q2Qc (inject_Z 100) * (r * r * r) <= Q2Qc (inject_Z (p_tolerance P)))%Qc.
Proof. exact ratio_ok_exact. Qed.

Theorem C36_badness :
  forall (P : para QcNum) (r : Qc), ratio_ok P QcPows r ->
    (0 <= Z.min (pw_cube QcPows r) 10000 <= Z.max 100 (p_tolerance P))%Z.
Proof. exact badness_bound. Qed.

Example C36_case :
  this (line_ratio text P100 0 0 5) = ((-1 # 6))%Q /\ this (line_ratio text P100 1 6 13) = (-2 # 3)%Q /\
  line_begin text (Some 5%nat) 6.
Proof.
  split; [vm_compute; reflexivity|]. split; [vm_compute; reflexivity|].
  split; [cbn; lia|]. split; [|right; left; exact I].
  intros i Hi. assert (i = 5%nat) by lia. subst i. cbn. tauto.
Qed.

(** C37, any arithmetic: among the breakings the algorithm considers, those
    whose lines never pass a point where they are overfull. *)
Theorem C37_optimal :
  forall (N : Num) (pw : pows N) (P : para N) (l : list (node N)) bps,
    computeBreakpoints pw P l = Ok bps ->
    exists bs f d,
      map bp_pos bps = 0%nat :: rev bs /\ map bp_line bps = seq 0 (S (length bs)) /\
      bp_dem (last bps start_bp) = d /\ bp_fit (last bps start_bp) = f /\
      (forall i b, nth_error bps i = Some b -> breaking l P pw (skipn (length bs - i) bs) (bp_fit b) (bp_dem b)) /\
      breaking l P pw bs f d /\ complete l P bs /\
      forall bs' f' d', breaking l P pw bs' f' d' -> complete l P bs' -> (d <= d')%Z.
Proof. exact (fun N pw P l bps => computeBreakpoints_ok pw P l bps). Qed.

(** C37, exact arithmetic: among all sequences of legal breaks through the forced
    ones whose lines are within tolerance. *)
Theorem C37_optimal_exact :
  forall (l : list (node QcNum)) (P : para QcNum) (pm : Z) (k : nat),
    Forall rigid_item l -> penalties_within l pm -> (0 <= pm)%Z ->
    (Z.of_nat (length l) * line_bound P (Z.max 100 (p_tolerance P)) pm < int_max)%Z ->
    length l = S k -> forced_at l k ->
    match computeBreakpoints QcPows P l with
    | Ok bps =>
        exists bs f d, map bp_pos bps = 0%nat :: rev bs /\
          simple_breaking l P bs f d /\ last_break bs = Some k /\
          bp_dem (last bps start_bp) = d /\
          forall bs' f' d', simple_breaking l P bs' f' d' -> last_break bs' = Some k -> (d <= d')%Z
    | Throw => forall bs f d, simple_breaking l P bs f d -> last_break bs <> Some k
    | _ => False
    end.
Proof. exact (fun l P pm k H1 H2 H3 H4 => optimal_exact l P H1 pm H2 H3 H4 k). Qed.

Theorem C37_no_overflow :
  forall (N : Num) (pw : pows N) (P : para N) (l : list (node N)) (B pm : Z),
    (forall r, ratio_ok P pw r -> 0 <= Z.min (pw_cube pw r) 10000 <= B)%Z ->
    penalties_within l pm -> (0 <= pm)%Z ->
    (Z.of_nat (length l) * line_bound P B pm < int_max)%Z ->
    computeBreakpoints pw P l <> UB.
Proof. exact (fun N pw P l B pm => no_overflow_lemma pw P l B pm). Qed.

(** Without the bound the demerits overflow an [int]: 22 lines that each end with
    penalty 9999. *)
Theorem C37_overflow_refuted :
  exists l : list (node QcNum), computeBreakpoints QcPows (P_of 800) (prepare (P_of 800) l) = UB.
Proof. exists (concat (repeat [w 800; pen 9999] 22)). vm_compute. reflexivity. Qed.

Example C37_case :
  Forall rigid_item text /\ penalties_within text 50 /\
  (Z.of_nat (length text) * line_bound P100 (Z.max 100 (p_tolerance P100)) 50 < int_max)%Z /\
  length text = 18%nat /\ forced_at text 17 /\ breaks P100 text <> Throw.
Proof.
  split; [repeat constructor; vm_compute; congruence|]. split.
  - intros p H Hp. cbn in H.
    repeat (destruct H as [H|H]; [try discriminate H; inversion H; subst p; lia|]). destruct H.
  - split; [vm_compute; reflexivity|]. split; [reflexivity|]. split; [cbn; lia|vm_compute; discriminate].
Qed.

(** C38, any arithmetic *)
Theorem C38_throw_iff :
  forall (N : Num) (pw : pows N) (P : para N) (l : list (node N)),
    computeBreakpoints pw P l <> UB ->
    (computeBreakpoints pw P l = Throw <-> forall bs f d, breaking l P pw bs f d -> ~ complete l P bs).
Proof. exact (fun N pw P l => throw_iff pw P l). Qed.

Theorem C38_outcomes :
  forall (N : Num) (pw : pows N) (P : para N) (l : list (node N)),
    (exists bps, computeBreakpoints pw P l = Ok bps) \/
    computeBreakpoints pw P l = Throw \/ computeBreakpoints pw P l = UB.
Proof. exact (fun N pw P l => computeBreakpoints_cases pw P l). Qed.

Example C38_case :
  breaks P100 (prepare P100 [w 60; sp; w 60; sp; w 10]) = Throw /\
  breaks P100 (prepare P100 [w 45; sp; w 45]) <> Throw.
Proof. split; vm_compute; congruence. Qed.

(** C39, any arithmetic *)
Theorem C39_nothing_lost :
  forall (N : Num) (pw : pows N) (P : para N) (xs : list (node N)) out,
    xs <> [] -> create pw P (prepare P xs) = Ok out ->
    exists bs f d lines,
      breaking (prepare P xs) P pw bs f d /\ complete (prepare P xs) P bs /\
      (forall bs' f' d', breaking (prepare P xs) P pw bs' f' d' -> complete (prepare P xs) P bs' -> (d <= d')%Z) /\
      cut (prepare P xs) 0 (rev bs) lines /\ nonempty_lines (prepare P xs) (rev bs) /\
      filter keeps (concat lines) = filter keeps xs /\
      length (filter keeps out) = length lines /\
      forall i its, nth_error lines i = Some its ->
        nth_error (filter keeps out) i = Some (node_of Horizontal (createLine P i its)).
Proof. exact (fun N pw P xs out => create_lines pw P xs out). Qed.

(** A list that was not prepared may lose everything: nothing forces a break. *)
Theorem C39_unprepared_refuted :
  exists l : list (node QcNum), l = [w 10; sp; w 20] /\ create QcPows P100 l = Ok [].
Proof. eexists. split; [reflexivity|]. vm_compute. reflexivity. Qed.

Example C39_case :
  match create QcPows P100 text with
  | Ok out => map (fun n : node QcNum => match n with NList _ _ _ _ _ its => length its | _ => 0 end)%nat (filter keeps out)
  | _ => []
  end = [7; 9; 5]%nat.
Proof. vm_compute. reflexivity. Qed.

(** C32 for the lines of a paragraph. The depths are above -10000pt. *)
Theorem C32_paragraph :
  forall (pw : pows QcNum) (P : para QcNum) l out, create pw P l = Ok out ->
    (forall n (m : metrics QcNum), In n out -> box_metrics n = Some m ->
       (Q2Qc (inject_Z (-10000)) < m_depth m)%Qc) ->
    spaced (p_baselineskip P) (p_lineskip P)
      (if Qclt_le_dec (Q2Qc (inject_Z (-10000))) (p_prevdepth P) then Some (p_prevdepth P) else None)
      (filter keeps out) out.
Proof. exact paragraph_spaced. Qed.
Example C32_paragraph_case :
  match create QcPows P100 text with
  | Ok out => map (fun n : node QcNum => match n with NGlue g => Some (this (g_space g)) | _ => None end) out
  | _ => []
  end = [None; Some (6 # 1)%Q; None; Some (6 # 1)%Q; None].
Proof. vm_compute. reflexivity. Qed.

(** C40, any arithmetic: without parshape *)
Theorem C40_line_hanging :
  forall (N : Num) (P : para N) n its, p_parshape P = [] -> hangs P n ->
    createLine P n its =
      hbox_to ((if nltb n0 (p_hangindent P) then [NKern (p_hangindent P)] else [])
               ++ NGlue (p_leftskip P) :: its ++ NGlue (p_rightskip P)
               :: (if nltb (p_hangindent P) n0 then [NKern (nabs (p_hangindent P))] else []))
              (nadd (linelength P n) (nabs (p_hangindent P))).
Proof. exact (fun N P n its => createLine_hang P n its). Qed.

Theorem C40_line_plain :
  forall (N : Num) (P : para N) n its, p_parshape P = [] -> ~ hangs P n ->
    createLine P n its = hbox_to (NGlue (p_leftskip P) :: its ++ [NGlue (p_rightskip P)]) (linelength P n).
Proof. exact (fun N P n its => createLine_plain P n its). Qed.

(** With a parshape the box gets the line length without the indentation. *)
Theorem C40_line_parshape :
  forall (N : Num) (P : para N) n its, p_parshape P <> [] ->
    createLine P n its =
      hbox_to (NKern (fst (parshape_at P n)) :: NGlue (p_leftskip P) :: its ++ [NGlue (p_rightskip P)])
              (nadd (linelength P n) n0).
Proof. exact (fun N P n its => createLine_parshape P n its). Qed.

Theorem C40_parshape_refuted :
  exists (P : para QcNum) its,
    p_parshape P = [(z 20, z 80)] /\
    this (m_width (b_metrics (createLine P 0 its))) = inject_Z 80 /\
    this (linelength P 0 + fst (parshape_at P 0))%Qc = inject_Z 100.
Proof.
  exists (with_hang 0 1 [(z 20, z 80)] P100), [w 20; sp; w 25].
  split; [reflexivity|]. split; vm_compute; reflexivity.
Qed.

Example C40_case :
  let P := with_hang 15 1 [] P100 in
  hangs P 1 /\ ~ hangs P 0 /\
  this (m_width (b_metrics (createLine P 1 [w 40; sp; w 38]))) = inject_Z 100.
Proof.
  split; [|split].
  - split; [vm_compute; reflexivity|]. cbn. lia.
  - intros (_ & H). cbn in H. lia.
  - vm_compute. reflexivity.
Qed.

(** C41, any arithmetic *)
Theorem C41_parshape :
  forall (N : Num) (P : para N) n ab, nth_error (p_parshape P) n = Some ab -> linelength P n = snd ab.
Proof. exact (fun N P n ab => linelength_parshape P n ab). Qed.

Theorem C41_parshape_last :
  forall (N : Num) (P : para N) n r ab,
    p_parshape P = r ++ [ab] -> (length r <= n)%nat -> linelength P n = snd ab.
Proof. exact (fun N P n r ab => linelength_parshape_last P n r ab). Qed.

Theorem C41_hanging :
  forall (N : Num) (P : para N) n, p_parshape P = [] -> hangs P n ->
    linelength P n = nsub (p_hsize P) (nabs (p_hangindent P)).
Proof. exact (fun N P n => linelength_hang P n). Qed.

Theorem C41_plain :
  forall (N : Num) (P : para N) n, p_parshape P = [] -> ~ hangs P n -> linelength P n = p_hsize P.
Proof. exact (fun N P n => linelength_plain P n). Qed.

Example C41_case :
  map (fun n => this (linelength (with_hang (-15) (-2) [] P100) n)) [0; 1; 2; 3]%nat
    = [inject_Z 85; inject_Z 85; inject_Z 100; inject_Z 100] /\
  map (fun n => this (linelength (with_hang 15 1 [] P100) n)) [0; 1; 2]%nat
    = [inject_Z 100; inject_Z 85; inject_Z 85] /\
  map (fun n => this (linelength (with_hang 15 1 [(z 0, z 70); (z 5, z 60)] P100) n)) [0; 1; 2]%nat
    = [inject_Z 70; inject_Z 60; inject_Z 60].
Proof. repeat split; vm_compute; reflexivity. Qed.

(** C42, exact arithmetic, for lines with finite glue and skips without space. *)
Theorem C42_ratio_partial :
  forall (P : para QcNum) xs out,
    xs <> [] -> ~ In NOther xs -> p_parshape P = [] ->
    g_space (p_leftskip P) = 0%Qc -> g_space (p_rightskip P) = 0%Qc ->
    finite_glue (NGlue (p_leftskip P)) -> finite_glue (NGlue (p_rightskip P)) ->
    (p_tolerance P <= int_max)%Z ->
    create QcPows P (prepare P xs) = Ok out ->
    let l := prepare P xs in
    exists bs f d,
      breaking l P QcPows bs f d /\ complete l P bs /\ length (filter keeps out) = length bs /\
      forall i b, nth_error (rev bs) i = Some b ->
        exists e box, line_ok l P QcPows i (last_break (skipn (length bs - i) bs)) e b /\
          nth_error (filter keeps out) i = Some (node_of Horizontal box) /\
          box = createLine P i (items l e b) /\
          (Forall finite_glue (items l e b) ->
           b_ratio box = line_ratio l P i e b /\ b_order box = Normal).
Proof. exact ratio_match_lemma. Qed.

(** With a leftskip of 10 the breaker subtracts its space instead of adding it:
    it takes a line that needs no stretching for one that has to be stretched. *)
Theorem C42_ratio_refuted :
  let P := with_skips (mkGlue (z 10) (z 0) (z 0) Normal Normal) (p_rightskip P100) P100 in
  let l := [w 40; sp; w 40] in
  this (line_ratio l P 0 0 3) = inject_Z 4 /\ this (b_ratio (createLine P 0 l)) = inject_Z 0.
Proof. split; vm_compute; reflexivity. Qed.

Example C42_case :
  map (fun n : node QcNum => match n with NList _ _ _ r _ _ => this r | _ => 0%Q end)
    (match create QcPows P100 text with Ok out => filter keeps out | _ => [] end)
  = [(-1 # 6)%Q; (-2 # 3)%Q; inject_Z 80].
Proof. vm_compute. reflexivity. Qed.

(** C43, any arithmetic: the assertion never fails, and what exactly goes wrong. *)
Theorem C43_no_abort :
  forall (N : Num) (pw : pows N) (P : para N) (l : list (node N)),
    create pw P l <> Abort /\ create pw P l <> Fuel.
Proof. exact (fun N pw P l => create_no_abort pw P l). Qed.

Theorem C43_undefined_iff :
  forall (N : Num) (pw : pows N) (P : para N) (l : list (node N)), l <> [] ->
    (create pw P l = UB <->
     computeBreakpoints pw P l = UB \/
     exists bps, computeBreakpoints pw P l = Ok bps /\ ~ nonempty_lines l (tl (map bp_pos bps))).
Proof. exact (fun N pw P l => create_ub_iff pw P l). Qed.

(** Ordinary material in a short enough paragraph, exact arithmetic. *)
Theorem C43_safe_partial :
  forall (P : para QcNum) (xs : list (node QcNum)) (pm : Z),
    xs <> [] -> Forall ordinary xs ->
    (forall n, (0 < linelength P n)%Qc) ->
    (0 <= g_space (p_leftskip P))%Qc -> (0 <= g_space (p_rightskip P))%Qc ->
    g_stretch (p_leftskip P) = 0%Qc -> g_stretch (p_rightskip P) = 0%Qc ->
    (p_tolerance P <= int_max)%Z ->
    penalties_within xs pm -> (0 <= pm)%Z ->
    (Z.of_nat (length xs + 3) * line_bound P (Z.max 100 (p_tolerance P)) pm < int_max)%Z ->
    (exists out, create QcPows P (prepare P xs) = Ok out) \/ create QcPows P (prepare P xs) = Throw.
Proof. exact create_safe_lemma. Qed.

(** Two forced breaks in a row, ragged right: the iterator leaves the line. *)
Theorem C43_past_end_refuted :
  let P := with_skips (p_leftskip P100) (mkGlue (z 0) (z 0) (z 1) Normal Fil) P100 in
  let xs := [w 10; pen (-10000); pen (-10000); w 10] in
  is_ok (computeBreakpoints QcPows P (prepare P xs)) = true /\
  create QcPows P (prepare P xs) = UB.
Proof. split; vm_compute; reflexivity. Qed.

(** The same with the default settings: the fil glue after the second penalty is
    counted, negatively, in a line that ends before it. *)
Theorem C43_past_end_default_refuted :
  let fil := NGlue (mkGlue (z 0) (z 0) (z 1) Normal Fil) in
  let xs := [w 10; fil; pen (-5000); pen (-5000); fil; w 10] in
  is_ok (computeBreakpoints QcPows P100 (prepare P100 xs)) = true /\
  create QcPows P100 (prepare P100 xs) = UB.
Proof. split; vm_compute; reflexivity. Qed.

Example C43_case :
  is_ok (create QcPows P100 text) = true /\ Forall ordinary words /\ penalties_within words 50 /\
  (Z.of_nat (length words + 3) * line_bound P100 (Z.max 100 (p_tolerance P100)) 50 < int_max)%Z.
Proof.
  split; [vm_compute; reflexivity|]. split; [|split; [|vm_compute; reflexivity]].
  - repeat constructor; vm_compute; congruence.
  - intros p H Hp. cbn in H.
    repeat (destruct H as [H|H]; [try discriminate H; inversion H; subst p; lia|]). destruct H.
Qed.

Print Assumptions C34_legal_ordered.
Print Assumptions C35_forced_taken.
Print Assumptions C35_prepared_last.
Print Assumptions C36_lines_feasible.
Print Assumptions C36_start.
Print Assumptions C36_tolerance.
Print Assumptions C36_badness.
Print Assumptions C37_optimal.
Print Assumptions C37_optimal_exact.
Print Assumptions C37_no_overflow.
Print Assumptions C37_overflow_refuted.
Print Assumptions C38_throw_iff.
Print Assumptions C38_outcomes.
Print Assumptions C39_nothing_lost.
Print Assumptions C39_unprepared_refuted.
Print Assumptions C40_line_hanging.
Print Assumptions C40_line_plain.
Print Assumptions C40_line_parshape.
Print Assumptions C40_parshape_refuted.
Print Assumptions C41_parshape.
Print Assumptions C41_parshape_last.
Print Assumptions C41_hanging.
Print Assumptions C41_plain.
Print Assumptions C42_ratio_partial.
Print Assumptions C42_ratio_refuted.
Print Assumptions C43_no_abort.
Print Assumptions C43_undefined_iff.
Print Assumptions C43_safe_partial.
Print Assumptions C43_past_end_refuted.
Print Assumptions C43_past_end_default_refuted.
Print Assumptions C32_paragraph.
