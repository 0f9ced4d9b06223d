From Coq Require Import List Ascii String QArith Qcanon ZArith Bool Arith Lia Lqa.
From Verif.Base Require Import Result Num.
From Verif.Model Require Import Token Glue Dimen DimenParser.
From Verif.Spec Require Import DimenSpec.
From Verif.Proofs Require Import DimenProofs ParserProofs.
Import ListNotations.
Local Open Scope char_scope.

Section S.
  Context (in_range : Q -> bool) (us : unitsystem QcNum).
  Notation pw := (pp_writes (N := QcNum) in_range us).
  Notation PP := (@mkPP QcNum).

  Lemma pw_app p a b : pw p (a ++ b) = do q <- pw p a; pw q b.
  Proof. apply foldM_app. Qed.

  Lemma pw_seq p a b q r : pw p a = Ok q -> pw q b = r -> pw p (a ++ b) = r.
  Proof. intros H <-. rewrite pw_app, H. reflexivity. Qed.

  Lemma whole_nonneg l : Forall (fun d => (0 <= d)%Z) l -> (0 <= whole l)%Z.
  Proof.
    induction 1 as [|d l Hd Hl IH]; cbn [whole]; [lia|].
    assert (0 <= 10 ^ Z.of_nat (List.length l))%Z by (apply Z.pow_nonneg; lia). nia.
  Qed.
  Lemma digits_in_nonneg s : Forall (fun d => (0 <= d)%Z) (digits_in s).
  Proof.
    induction s as [|c s IH]; cbn [digits_in]; [constructor|].
    destruct ((48 <=? code c)%nat && (code c <=? 57)%nat) eqn:E; [|exact IH].
    constructor; [|exact IH]. apply andb_true_iff in E. destruct E as [E _]. apply Nat.leb_le in E. lia.
  Qed.
  Lemma digits_len s : Forall digit s -> List.length (digits_in s) = List.length s.
  Proof.
    induction s as [|x s IHs]; intros H; [reflexivity|]. pose proof (Forall_inv H) as Hx.
    apply Forall_inv_tail in H. apply is_digit_iff in Hx. unfold is_digit in Hx. fold (code x) in Hx.
    cbn [digits_in]. rewrite Hx. cbn [List.length]. rewrite IHs by exact H. reflexivity.
  Qed.

  Lemma pw_digits ds a sp pe d : Forall digit ds -> (0 <= a)%Z ->
    (a * 10 ^ Z.of_nat (List.length ds) + whole (digits_in ds) <= INT_MAX)%Z ->
    pw (PP PNum a sp pe d) ds = Ok (PP PNum (a * 10 ^ Z.of_nat (List.length ds) + whole (digits_in ds))%Z sp pe d).
  Proof.
    unfold pp_writes. revert a; induction ds as [|c ds IH]; intros a H Ha Hm; cbn [foldM].
    - cbn [digits_in whole List.length]. rewrite Z.mul_1_r, Z.add_0_r. reflexivity.
    - pose proof (Forall_inv H) as Hc. apply Forall_inv_tail in H. unfold pp_write at 1. cbn [pp_st].
      pose proof Hc as Hc'. apply is_digit_iff in Hc. rewrite Hc. cbn [pp_num].
      pose proof (digits_len ds H) as L.
      assert (Hd : digits_in (c :: ds) = digit_of c :: digits_in ds).
      { cbn [digits_in]. unfold is_digit in Hc. fold (code c) in Hc. rewrite Hc. reflexivity. }
      rewrite Hd in *. cbn [whole List.length] in *. rewrite L in *.
      rewrite Nat2Z.inj_succ, Z.pow_succ_r in * by lia.
      assert (P : (1 <= 10 ^ Z.of_nat (List.length ds))%Z) by (pose proof (Z.pow_pos_nonneg 10 (Z.of_nat (List.length ds))); lia).
      pose proof (whole_nonneg _ (digits_in_nonneg ds)) as Wn.
      assert (Dn : (0 <= digit_of c)%Z) by (unfold digit_of; unfold digit, code in Hc'; lia).
      set (e := (10 ^ Z.of_nat (List.length ds))%Z) in *. clearbody e.
      assert (Hn : (a * 10 + digit_of c <= INT_MAX)%Z) by nia.
      destruct (INT_MAX <? a * 10 + digit_of c)%Z eqn:E; [apply Z.ltb_lt in E; lia|].
      cbn [bind pp_specs pp_pending pp_dimen]. subst.
      rewrite IH; [|exact H|lia|nia].
      f_equal. f_equal. nia.
  Qed.

  (** a dimension, read by the parshape parser *)
  Lemma pw_dim (st : pp_state) t p0 n sp pe d : st = PIndent \/ st = PLength ->
    dp_writes p0 t = Ok d -> dp_isFinished d = false ->
    pw (PP st n sp pe p0) t = Ok (PP st n sp pe d).
  Proof.
    intros Hst. revert d. induction t as [|c t IH] using rev_ind; intros d H F.
    - injection H as <-. reflexivity.
    - unfold dp_writes in H. rewrite foldM_app in H. apply bind_Ok in H. destruct H as (q & Hq & Hc).
      cbn [foldM] in Hc. apply bind_Ok in Hc. destruct Hc as (q' & Hw & E). injection E as <-.
      assert (Fq : dp_isFinished q = false).
      { unfold dp_write in Hw. unfold dp_isFinished. destruct (dp_st q) eqn:E; try reflexivity.
        injection Hw as <-. unfold dp_isFinished in F. rewrite E in F. discriminate. }
      specialize (IH q Hq Fq). unfold pp_writes in *. rewrite foldM_app, IH. cbn [bind foldM].
      destruct Hst as [-> | ->]; unfold pp_write; cbn [pp_st pp_dimen]; rewrite Hw; cbn [bind]; rewrite F; reflexivity.
  Qed.

  Lemma pw_indent i c q u v n sp : dim_text i q u v -> finite u -> in_range (Qred v) = true -> ~ lower c ->
    pw (PP PIndent n sp None dp_init) (i ++ [c]) = Ok (PP PLength n sp (Some (length_in us u q)) dp_init).
  Proof.
    intros Hd Hu Hr Hc. destruct (dim_split in_range i c q u v Hd Hc) as (p0 & p & W0 & F0 & E0 & Wc & F & E).
    rewrite pw_app, (pw_dim PIndent i dp_init n sp None p0) by auto. cbn [bind]. unfold pp_writes; cbn [foldM].
    unfold pp_write. cbn [pp_st pp_dimen]. rewrite Wc. cbn [bind]. rewrite F, E. unfold read_as. rewrite Hr. cbn [bind].
    rewrite eval_finite by exact Hu. reflexivity.
  Qed.

  Lemma pw_length l c q u v n sp i : dim_text l q u v -> finite u -> in_range (Qred v) = true -> ~ lower c ->
    exists d, pw (PP PLength n sp (Some i) dp_init) (l ++ [c])
      = Ok (if (Z.of_nat (List.length (sp ++ [(i, length_in us u q)])) =? n)%Z
            then PP PFinished n (sp ++ [(i, length_in us u q)]) None d
            else PP PIndent n (sp ++ [(i, length_in us u q)]) None dp_init).
  Proof.
    intros Hd Hu Hr Hc. destruct (dim_split in_range l c q u v Hd Hc) as (p0 & p & W0 & F0 & E0 & Wc & F & E).
    exists p. rewrite pw_app, (pw_dim PLength l dp_init n sp (Some i) p0) by auto. cbn [bind]. unfold pp_writes; cbn [foldM].
    unfold pp_write. cbn [pp_st pp_dimen]. rewrite Wc. cbn [bind]. rewrite F, E. unfold read_as. rewrite Hr. cbn [bind].
    rewrite eval_finite by exact Hu. cbn [bind pp_set_length pp_pending pp_specs pp_num].
    destruct (Z.of_nat _ =? n)%Z; reflexivity.
  Qed.

  Lemma pw_shape ps t sp n : shape_text in_range us ps t -> ps <> [] ->
    Z.of_nat (List.length sp + List.length ps) = n ->
    exists d, pw (PP PIndent n sp None dp_init) t = Ok (PP PFinished n (sp ++ ps) None d).
  Proof.
    intros H. revert sp n. induction H as [|i q u v c l q2 u2 v2 x ps t Hi Hu Hr Hc Hl Hu2 Hr2 Hx Hs IH]; intros sp n Hn Hk.
    - congruence.
    - rewrite pw_app, (pw_indent i c q u v) by assumption. cbn [bind].
      destruct (pw_length l x q2 u2 v2 n sp (length_in us u q) Hl Hu2 Hr2 Hx) as (d & W).
      rewrite app_length in W. cbn [List.length] in *.
      destruct ps as [|y ps].
      + cbn [List.length] in Hk. assert (E : (Z.of_nat (List.length sp + 1) =? n)%Z = true) by (apply Z.eqb_eq; exact Hk).
        rewrite E in W. inversion Hs; subst. exists d. eapply pw_seq; [exact W|reflexivity].
      + assert (E : (Z.of_nat (List.length sp + 1) =? n)%Z = false) by (apply Z.eqb_neq; cbn [List.length] in Hk; lia).
        rewrite E in W. destruct (IH (sp ++ [(length_in us u q, length_in us u2 q2)]) n) as (d2 & W2); [discriminate| |].
        * rewrite app_length. cbn [List.length] in *. lia.
        * exists d2. eapply pw_seq; [exact W|]. rewrite <- app_assoc in W2. exact W2.
  Qed.

  (** reading up to the space after the number *)
  Lemma pw_head (eq : bool) ds : Forall digit ds -> ds <> [] -> (whole (digits_in ds) <= INT_MAX)%Z ->
    pw pp_init ((if eq then ["="] else []) ++ ds ++ [" "])
    = Ok (PP (if (whole (digits_in ds) =? 0)%Z then PFinished else PIndent) (whole (digits_in ds)) [] None dp_init).
  Proof.
    intros H Hn Hm.
    assert (A : pw pp_init ((if eq then ["="] else []) ++ ds) = Ok (PP PNum (whole (digits_in ds)) [] None dp_init)).
    { destruct eq.
      - rewrite pw_app. unfold pp_writes at 1. cbn [foldM].
        change (pp_write (N := QcNum) in_range us pp_init "=") with (Ok (PP PNum 0 [] None dp_init)). cbn [bind].
        rewrite pw_digits; [|exact H|lia|rewrite Z.mul_0_l; exact Hm]. rewrite Z.mul_0_l. reflexivity.
      - cbn [app]. destruct ds as [|c ds]; [congruence|]. pose proof (Forall_inv H) as Hc. apply Forall_inv_tail in H.
        unfold pp_writes. cbn [foldM]. unfold pp_write at 1. cbn [pp_init pp_st pp_specs pp_pending pp_dimen].
        pose proof Hc as Hc'. apply is_digit_iff in Hc.
        destruct (ceq c "=") eqn:E; [apply ceq_iff in E; subst; discriminate|]. rewrite Hc. cbn [bind].
        assert (Hd : digits_in (c :: ds) = digit_of c :: digits_in ds).
        { cbn [digits_in]. unfold is_digit in Hc. fold (code c) in Hc. rewrite Hc. reflexivity. }
        rewrite Hd in *. cbn [whole] in *. pose proof (digits_len ds H) as L. rewrite L in *.
        change (foldM _ ds ?p) with (pw p ds). rewrite pw_digits; [reflexivity|exact H| |exact Hm].
        unfold digit_of; unfold digit, code in Hc'; lia. }
    rewrite app_assoc, pw_app, A. cbn [bind]. unfold pp_writes. cbn [foldM]. unfold pp_write. cbn [pp_st is_digit].
    cbn. destruct (whole (digits_in ds) =? 0)%Z; reflexivity.
  Qed.

  Lemma pw_blanks b p : pp_st p = PFinished -> blanks b -> pw p b = Ok p.
  Proof.
    intros H Hb. unfold pp_writes. induction b as [|c b IH]; [reflexivity|]. pose proof (Forall_inv Hb) as ->.
    apply Forall_inv_tail in Hb. cbn [foldM]. unfold pp_write at 1. rewrite H. cbn. apply IH. exact Hb.
  Qed.

  Theorem parshape_complete (eq : bool) ds ps t b :
    Forall digit ds -> ds <> [] -> (whole (digits_in ds) <= INT_MAX)%Z ->
    whole (digits_in ds) = Z.of_nat (List.length ps) -> shape_text in_range us ps t -> blanks b ->
    exists p, pw pp_init (((if eq then ["="] else []) ++ ds ++ [" "]) ++ t ++ b) = Ok p
              /\ pp_st p = PFinished /\ pp_finish in_range us p = Ok ps.
  Proof.
    intros H Hn Hm Hl Hs Hb. rewrite pw_app, pw_head by assumption. cbn [bind]. rewrite Hl.
    destruct ps as [|y ps].
    - inversion Hs; subst. cbn [app]. eexists. split; [apply pw_blanks; [reflexivity|exact Hb]|]. split; reflexivity.
    - assert (E : (Z.of_nat (List.length (y :: ps)) =? 0)%Z = false) by (apply Z.eqb_neq; cbn [List.length]; lia).
      rewrite E. destruct (pw_shape (y :: ps) t [] _ Hs ltac:(discriminate) eq_refl) as (d & W).
      cbn [List.length plus] in *. rewrite pw_app, W. cbn [bind]. eexists.
      split; [apply pw_blanks; [reflexivity|exact Hb]|]. split; reflexivity.
  Qed.

  (** the last dimension may end with the text *)
  Theorem parshape_last (eq : bool) ds ps t i c q u v l q2 u2 v2 :
    Forall digit ds -> (whole (digits_in ds) <= INT_MAX)%Z ->
    whole (digits_in ds) = Z.of_nat (S (List.length ps)) -> shape_text in_range us ps t ->
    dim_text i q u v -> finite u -> in_range (Qred v) = true -> ~ lower c ->
    dim_text l q2 u2 v2 -> finite u2 -> in_range (Qred v2) = true ->
    exists p, pw pp_init (((if eq then ["="] else []) ++ ds ++ [" "]) ++ t ++ (i ++ [c]) ++ l) = Ok p
              /\ pp_finish in_range us p = Ok (ps ++ [(length_in us u q, length_in us u2 q2)]).
  Proof.
    intros H Hm Hl Hs Hi Hu Hr Hc Hd Hu2 Hr2.
    assert (Hn : ds <> []) by (intros ->; cbn [digits_in whole] in Hl; lia).
    rewrite pw_app, pw_head by assumption. cbn [bind]. rewrite Hl.
    assert (E : (Z.of_nat (S (List.length ps)) =? 0)%Z = false) by (apply Z.eqb_neq; lia). rewrite E. clear E.
    (* the first lines *)
    assert (G : forall ps t sp n, shape_text in_range us ps t -> (Z.of_nat (List.length sp + List.length ps) < n)%Z ->
      pw (PP PIndent n sp None dp_init) t = Ok (PP PIndent n (sp ++ ps) None dp_init)).
    { clear -in_range us. intros ps t sp n H. revert sp.
      induction H as [|i q u v c l q2 u2 v2 x ps t Hi Hu Hr Hc Hl Hu2 Hr2 Hx Hs IH]; intros sp Hk.
      - rewrite app_nil_r. reflexivity.
      - rewrite pw_app, (pw_indent i c q u v) by assumption. cbn [bind].
        destruct (pw_length l x q2 u2 v2 n sp (length_in us u q) Hl Hu2 Hr2 Hx) as (d & W).
        rewrite app_length in W. cbn [List.length] in *.
        assert (E : (Z.of_nat (List.length sp + 1) =? n)%Z = false) by (apply Z.eqb_neq; lia).
        rewrite E in W. eapply pw_seq; [exact W|].
        rewrite IH by (rewrite app_length; cbn [List.length]; lia). rewrite <- app_assoc. reflexivity. }
    rewrite pw_app, (G ps t []) by (cbn [List.length plus]; (exact Hs || lia)). cbn [bind app].
    rewrite pw_app, (pw_indent i c q u v) by assumption. cbn [bind].
    destruct (dim_split in_range l " " q2 u2 v2 Hd) as (p0 & _ & W0 & F0 & E0 & _ & _); [unfold lower, code; cbn; lia|].
    rewrite (pw_dim PLength l dp_init _ ps _ p0) by auto. eexists. split; [reflexivity|].
    unfold pp_finish. cbn [pp_st pp_num pp_size pp_specs pp_pending pp_dimen].
    unfold pp_size. cbn [pp_specs pp_pending].
    match goal with |- (if ?b then _ else _) = _ => assert (Eb : b = true) by (apply Z.eqb_eq; rewrite Nat2Z.inj_succ; reflexivity); rewrite Eb end.
    rewrite E0. unfold read_as. rewrite Hr2. cbn [bind]. rewrite eval_finite by exact Hu2. reflexivity.
  Qed.

  (** an infinite unit reaches the assertion of [Dimen::operator()] *)
  Theorem parshape_infinite i c q u v n sp :
    dim_text i q u v -> ~ finite u -> in_range (Qred v) = true -> ~ lower c ->
    pw (PP PIndent n sp None dp_init) (i ++ [c]) = Abort.
  Proof.
    intros Hd Hu Hr Hc. destruct (dim_split in_range i c q u v Hd Hc) as (p0 & p & W0 & F0 & E0 & Wc & F & E).
    rewrite pw_app, (pw_dim PIndent i dp_init n sp None p0) by auto. cbn [bind]. unfold pp_writes; cbn [foldM].
    unfold pp_write. cbn [pp_st pp_dimen]. rewrite Wc. cbn [bind]. rewrite F, E. unfold read_as. rewrite Hr. cbn [bind].
    unfold d_eval, finite in *. cbn [d_unit]. destruct u; try reflexivity; tauto.
  Qed.
End S.

(** * Options *)
Section O.
  Context (moved : name -> name) (Hmoved : moved [] = []).
  Notation ow := (op_writes moved).

  Lemma ow_app p a b : ow p (a ++ b) = do q <- ow p a; ow q b.
  Proof. apply foldM_app. Qed.

  Lemma ow_done t p : op_st p = OFinished -> ow p t = Ok p.
  Proof.
    intros H. unfold op_writes. induction t as [|c t IH]; [reflexivity|]. cbn [foldM]. unfold op_write at 1.
    rewrite H. exact IH.
  Qed.

  (** state of the parser inside a piece: what is left of the piece decides *)
  Definition key_piece (k p : name) : name * option name := let (a, b) := cut "=" p in (k ++ a, b).

  Lemma ow_value v b k w r : Forall (fun c => c <> "," /\ c <> "]") v ->
    ow (mkOP ParseValue k w r) (v ++ b) = ow (mkOP ParseValue k (w ++ v) r) b.
  Proof.
    revert w; induction v as [|c v IH]; intros w H; [rewrite app_nil_r; reflexivity|].
    pose proof (Forall_inv H) as [H1 H2]. apply Forall_inv_tail in H. cbn [app]. unfold op_writes. cbn [foldM].
    unfold op_write at 1. cbn [op_st]. apply ceq_false in H1, H2. rewrite H1, H2. cbn [bind op_key op_value op_result].
    change (foldM _ (v ++ b) ?p) with (ow p (v ++ b)). rewrite IH by exact H. rewrite <- app_assoc. reflexivity.
  Qed.

  (** one step on a key character *)
  Definition key_add (k : name) (c : ascii) : name :=
    match k with [] => if ascii_dec c " " then [] else [c] | _ => k ++ [c] end.
  Lemma ow_key c b k r : c <> "=" -> c <> "," -> c <> "]" ->
    ow (mkOP ParseKey k [] r) (c :: b) = ow (mkOP ParseKey (key_add k c) [] r) b.
  Proof.
    intros H1 H2 H3. unfold op_writes. cbn [foldM]. unfold op_write at 1. cbn [op_st].
    apply ceq_false in H1, H2, H3. rewrite H1, H2, H3. cbn [bind op_key op_value op_result].
    f_equal. f_equal. unfold key_add. destruct k as [|x k].
    - cbn [app List.length Nat.eqb removelast]. rewrite andb_true_r. unfold ceq.
      destruct (Ascii.eqb_spec c " "); destruct (ascii_dec c " "); congruence.
    - cbn [app List.length]. rewrite app_length. cbn [List.length].
      replace (Nat.eqb (S (List.length k + 1)) 1) with false by (symmetry; apply Nat.eqb_neq; lia).
      rewrite andb_false_r. reflexivity.
  Qed.

  Definition absorb (k : name) (a : name) : name := fold_left key_add a k.
  Lemma absorb_ne k a : k <> [] -> absorb k a = k ++ a.
  Proof.
    unfold absorb. revert k; induction a as [|c a IH]; intros k H; cbn [fold_left]; [rewrite app_nil_r; reflexivity|].
    destruct k as [|x k]; [congruence|]. cbn [key_add]. rewrite IH by discriminate. rewrite <- app_assoc. reflexivity.
  Qed.
  Lemma absorb_trim a : absorb [] a = trim a.
  Proof.
    unfold absorb. induction a as [|c a IH]; [reflexivity|]. cbn [fold_left key_add trim].
    destruct (ascii_dec c " "); [exact IH|]. change (fold_left key_add a [c]) with (absorb [c] a).
    rewrite absorb_ne by discriminate. reflexivity.
  Qed.

  Lemma ow_keys a b k r : Forall (fun c => c <> "," /\ c <> "=" /\ c <> "]") a ->
    ow (mkOP ParseKey k [] r) (a ++ b) = ow (mkOP ParseKey (absorb k a) [] r) b.
  Proof.
    revert k; induction a as [|c a IH]; intros k H; [reflexivity|].
    pose proof (Forall_inv H) as (H1 & H2 & H3). apply Forall_inv_tail in H. cbn [app].
    rewrite ow_key by assumption. rewrite IH by exact H. reflexivity.
  Qed.

  Lemma cut_spec x s : let (a, b) := cut x s in
    s = a ++ match b with None => [] | Some r => x :: r end /\ ~ In x a.
  Proof.
    induction s as [|c s IH]; [split; [reflexivity|intros []]|]. cbn [cut].
    destruct (ascii_dec c x) as [->|N]; [split; [reflexivity|intros []]|].
    destruct (cut x s) as [a b]. destruct IH as [-> I]. split; [reflexivity|].
    intros [E|E]; [congruence|contradiction].
  Qed.

  (** a piece, then a comma or the bracket *)
  Lemma ow_piece p b r : Forall (fun c => c <> "," /\ c <> "]") p ->
    ow (mkOP ParseKey [] [] r) (p ++ b)
    = (let (k, v) := cut "=" p in
       ow (mkOP (match v with None => ParseKey | Some _ => ParseValue end) (trim k)
                (match v with None => [] | Some v => v end) r) b).
  Proof.
    intros H. pose proof (cut_spec "=" p) as C. destruct (cut "=" p) as [k v]. destruct C as [-> Hk].
    apply Forall_app in H. destruct H as [Ha Hb].
    assert (Hka : Forall (fun c => c <> "," /\ c <> "=" /\ c <> "]") k).
    { rewrite Forall_forall in *. intros c Hc. destruct (Ha c Hc). repeat split; try assumption. intros ->. contradiction. }
    rewrite <- app_assoc, ow_keys by exact Hka. rewrite absorb_trim. destruct v as [v|]; [|reflexivity].
    apply Forall_inv_tail in Hb. cbn [app]. unfold op_writes at 1. cbn [foldM]. unfold op_write at 1. cbn [op_st ceq Ascii.eqb].
    cbn [Bool.eqb bind op_key op_value op_result]. change (foldM _ (v ++ b) ?p) with (ow p (v ++ b)).
    rewrite ow_value by exact Hb. reflexivity.
  Qed.

  Lemma ow_comma p b r : Forall (fun c => c <> "," /\ c <> "]") p ->
    ow (mkOP ParseKey [] [] r) (p ++ "," :: b) = ow (mkOP ParseKey [] [] (r ++ [option_of p])) b.
  Proof.
    intros H. rewrite ow_piece by exact H. unfold option_of. destruct (cut "=" p) as [k [v|]].
    - reflexivity.
    - unfold op_writes. cbn [foldM]. unfold op_write at 1. cbn. rewrite Hmoved. reflexivity.
  Qed.

  Lemma ow_bracket p b r : Forall (fun c => c <> "," /\ c <> "]") p ->
    exists q, ow (mkOP ParseKey [] [] r) (p ++ "]" :: b) = Ok q /\ op_st q = OFinished
      /\ op_result q = r ++ map option_of (if is_blank_piece p then [] else [p]).
  Proof.
    intros H. rewrite ow_piece by exact H. unfold option_of, is_blank_piece.
    destruct (cut "=" p) as [k [v|]] eqn:C.
    - unfold op_writes. cbn [foldM]. unfold op_write at 1. cbn. change (foldM _ b ?p) with (ow p b).
      rewrite ow_done by reflexivity. eexists. split; [reflexivity|]. split; [reflexivity|]. cbn. rewrite C. reflexivity.
    - unfold op_writes. cbn [foldM]. unfold op_write at 1. cbn. destruct (trim k) as [|x k'] eqn:T; cbn [bind];
        change (foldM _ b ?p) with (ow p b); rewrite ow_done by reflexivity;
        eexists; (split; [reflexivity|]); (split; [reflexivity|]); cbn.
      + rewrite app_nil_r. reflexivity.
      + rewrite C, T. reflexivity.
  Qed.

  Lemma pieces_cut body : exists p ps, pieces body = p :: ps
    /\ match ps with [] => body = p | _ => exists rest, body = p ++ "," :: rest /\ pieces rest = ps end
    /\ ~ In "," p.
  Proof.
    induction body as [|c body (p & ps & E & B & I)]; [exists [], []; repeat split; intros []|].
    cbn [pieces]. destruct (ascii_dec c ",") as [->|N].
    - exists [], (pieces body). split; [reflexivity|]. rewrite E. split; [|intros []].
      exists body. split; [reflexivity|exact E].
    - rewrite E. exists (c :: p), ps. split; [reflexivity|]. split.
      + destruct ps; [subst; reflexivity|]. destruct B as (rest & -> & R). exists rest. auto.
      + intros [E'|E']; [congruence|contradiction].
  Qed.

  Lemma ow_body body rest r : ~ In "]" body ->
    exists q, ow (mkOP ParseKey [] [] r) (body ++ "]" :: rest) = Ok q /\ op_st q = OFinished
              /\ op_result q = r ++ options_of body.
  Proof.
    remember (List.length body) as n eqn:Hn. revert body r Hn.
    induction n as [n IH] using lt_wf_ind; intros body r -> H.
    destruct (pieces_cut body) as (p & ps & E & B & I). unfold options_of. rewrite E. destruct ps as [|p2 ps].
    - subst p. cbn [drop_blank_last]. apply ow_bracket. apply Forall_forall. intros c Hc.
      split; intros ->; contradiction.
    - destruct B as (rest2 & -> & R).
      assert (Hp : Forall (fun c => c <> "," /\ c <> "]") p).
      { apply Forall_forall. intros c Hc. split; intros ->; [contradiction|]. apply H. apply in_app_iff. auto. }
      rewrite <- app_assoc. cbn [app]. rewrite ow_comma by exact Hp.
      destruct (IH (List.length rest2)) with (body := rest2) (r := r ++ [option_of p]) as (q & W & S & Q).
      + rewrite app_length. cbn [List.length]. lia.
      + reflexivity.
      + intros K. apply H. apply in_app_iff. right. right. exact K.
      + exists q. split; [exact W|]. split; [exact S|]. rewrite Q. unfold options_of. rewrite R, <- app_assoc. reflexivity.
  Qed.

  Theorem options_parse bl body rest : blanks bl -> ~ In "]" body ->
    exists q, ow op_init (bl ++ "[" :: body ++ "]" :: rest) = Ok q
              /\ op_finish q = Ok (options_of body).
  Proof.
    intros Hb H. destruct (ow_body body rest [] H) as (q & W & S & Q). exists q. split.
    - rewrite ow_app. assert (E : ow op_init bl = Ok op_init).
      { clear -Hb. induction bl as [|c bl IH]; [reflexivity|]. pose proof (Forall_inv Hb) as ->. apply Forall_inv_tail in Hb.
        unfold op_writes in *. cbn. apply IH. exact Hb. }
      rewrite E. cbn [bind]. unfold op_writes. cbn [foldM]. unfold op_write at 1. cbn. exact W.
    - unfold op_finish. rewrite S, Q. reflexivity.
  Qed.

  (** * Round trip *)
  Lemma cut_key k v : ~ In "=" k -> cut "=" (k ++ match v with None => [] | Some v => "=" :: v end) = (k, v).
  Proof.
    induction k as [|c k IH]; intros H.
    - destruct v; reflexivity.
    - cbn [app cut]. destruct (ascii_dec c "="); [subst; exfalso; apply H; left; reflexivity|].
      rewrite IH; [reflexivity|]. intros K. apply H. right. exact K.
  Qed.

  Lemma opt_of_text o : opt_ok o -> option_of (opt_text o) = opt_value o.
  Proof.
    destruct o as [k v]. unfold opt_ok, option_of, opt_text, opt_value; cbn [fst snd]. intros (Hk & Hs & _).
    rewrite cut_key.
    - f_equal. destruct k as [|c k]; [reflexivity|]. cbn [trim]. destruct (ascii_dec c " "); [congruence|reflexivity].
    - intros K. rewrite Forall_forall in Hk. destruct (Hk _ K) as (_ & E & _). congruence.
  Qed.

  Lemma opt_text_clean o : opt_ok o -> ~ In "," (opt_text o) /\ ~ In "]" (opt_text o).
  Proof.
    destruct o as [k v]. unfold opt_ok, opt_text; cbn [fst snd]. intros (Hk & Hs & Hv).
    rewrite Forall_forall in Hk.
    assert (K : forall x, x = "," \/ x = "]" -> ~ In x (k ++ match v with Some v => "=" :: v | None => [] end)).
    { intros x Hx I. apply in_app_iff in I. destruct I as [I|I].
      - destruct (Hk _ I) as (A & _ & B). destruct Hx; congruence.
      - destruct v as [v|]; [|destruct I]. destruct I as [I|I]; [subst; destruct Hx; discriminate|].
        rewrite Forall_forall in Hv. destruct (Hv _ I). destruct Hx; congruence. }
    split; apply K; auto.
  Qed.

  Lemma pieces_app_comma p b : ~ In "," p -> pieces (p ++ "," :: b) = p :: pieces b.
  Proof.
    induction p as [|c p IH]; intros H; cbn [app pieces].
    - destruct (ascii_dec "," ","); [reflexivity|congruence].
    - destruct (ascii_dec c ","); [subst; exfalso; apply H; left; reflexivity|].
      rewrite IH; [reflexivity|]. intros K. apply H. right. exact K.
  Qed.
  Lemma pieces_single p : ~ In "," p -> pieces p = [p].
  Proof.
    induction p as [|c p IH]; intros H; cbn [pieces]; [reflexivity|].
    destruct (ascii_dec c ","); [subst; exfalso; apply H; left; reflexivity|].
    rewrite IH; [reflexivity|]. intros K. apply H. right. exact K.
  Qed.

  Lemma blank_piece o : opt_ok o -> o <> ([], None) -> is_blank_piece (opt_text o) = false.
  Proof.
    destruct o as [k v]. unfold opt_ok, is_blank_piece, opt_text; cbn [fst snd]. intros (Hk & Hs & _) N.
    rewrite cut_key.
    - destruct v; [reflexivity|]. destruct k as [|c k]; [exfalso; apply N; reflexivity|]. cbn [trim].
      destruct (ascii_dec c " "); [congruence|reflexivity].
    - intros K. rewrite Forall_forall in Hk. destruct (Hk _ K) as (_ & E & _). congruence.
  Qed.

  Lemma options_of_text l : Forall opt_ok l -> last l ([], Some []) <> ([], None) ->
    options_of (opts_text l) = map opt_value l.
  Proof.
    unfold options_of. induction l as [|o l IH]; intros H HL.
    - reflexivity.
    - pose proof (Forall_inv H) as Ho. apply Forall_inv_tail in H. destruct (opt_text_clean o Ho) as [Hc _].
      destruct l as [|o2 l].
      + cbn [opts_text]. rewrite pieces_single by exact Hc. cbn [drop_blank_last]. cbn [last] in HL.
        rewrite blank_piece by assumption. cbn [map]. rewrite opt_of_text by exact Ho. reflexivity.
      + change (opts_text (o :: o2 :: l)) with (opt_text o ++ "," :: opts_text (o2 :: l)).
        rewrite pieces_app_comma by exact Hc. specialize (IH H HL).
        destruct (pieces_cut (opts_text (o2 :: l))) as (p & ps & E & _). rewrite E in *.
        cbn [drop_blank_last map] in *. rewrite IH, opt_of_text by exact Ho. reflexivity.
  Qed.

  Lemma opts_text_clean l : Forall opt_ok l -> ~ In "]" (opts_text l).
  Proof.
    induction l as [|o l IH]; intros H; [intros []|]. pose proof (Forall_inv H) as Ho. apply Forall_inv_tail in H.
    destruct (opt_text_clean o Ho) as [_ Hb]. destruct l as [|o2 l]; [exact Hb|].
    change (opts_text (o :: o2 :: l)) with (opt_text o ++ "," :: opts_text (o2 :: l)).
    intros I. apply in_app_iff in I. destruct I as [I|[I|I]]; [contradiction|discriminate|exact (IH H I)].
  Qed.

  Theorem options_roundtrip bl l rest : blanks bl -> Forall opt_ok l -> last l ([], Some []) <> ([], None) ->
    exists q, ow op_init (bl ++ "[" :: opts_text l ++ "]" :: rest) = Ok q
              /\ op_finish q = Ok (map opt_value l).
  Proof.
    intros Hb H HL. rewrite <- options_of_text by assumption. apply options_parse; [exact Hb|].
    apply opts_text_clean. exact H.
  Qed.
End O.

(** Options: every other text is an error *)
Section Rejects.
  Variable moved : name -> name.
  Definition inside (st : op_state) : bool := match st with ParseKey | ParseValue => true | _ => false end.
  Lemma op_go p c : op_st p <> ParseLeftBracket -> exists q, op_write moved p c = Ok q /\
    op_st q <> ParseLeftBracket /\ (inside (op_st p) = true -> c <> "]" -> inside (op_st q) = true).
  Proof.
    intros H. unfold op_write. destruct (op_st p) eqn:Es; [destruct H; reflexivity| | |].
    - destruct (ceq c "=") eqn:E1; [eexists; split; [reflexivity|split; [discriminate|reflexivity]]|].
      destruct (ceq c ",") eqn:E2; [eexists; split; [reflexivity|split; [discriminate|reflexivity]]|].
      destruct (ceq c "]") eqn:E3.
      + apply Ascii.eqb_eq in E3. destruct (op_key p); eexists; (split; [reflexivity|split; [discriminate|]]); intros _ Hc; destruct (Hc E3).
      + eexists; split; [reflexivity|split; [discriminate|reflexivity]].
    - destruct (ceq c ",") eqn:E2; [eexists; split; [reflexivity|split; [discriminate|reflexivity]]|].
      destruct (ceq c "]") eqn:E3.
      + apply Ascii.eqb_eq in E3. eexists; (split; [reflexivity|split; [discriminate|]]); intros _ Hc; destruct (Hc E3).
      + eexists; split; [reflexivity|split; [discriminate|reflexivity]].
    - eexists; split; [reflexivity|]. rewrite Es. split; [discriminate|discriminate].
  Qed.
  Lemma op_inside t : forall p, inside (op_st p) = true -> ~ In "]" t ->
    exists q, op_writes moved p t = Ok q /\ inside (op_st q) = true.
  Proof.
    induction t as [|c t IH]; intros p H HI; [exists p; split; [reflexivity|exact H]|].
    destruct (op_go p c) as (q & Hq & _ & Hi); [destruct (op_st p); discriminate|].
    unfold op_writes. cbn [foldM]. rewrite Hq. cbn [bind].
    apply IH; [apply Hi; [exact H|]|]; intros E; apply HI; [left; exact E|right; exact E].
  Qed.
  Lemma cut_bracket (t : name) : ~ In "]" t \/ exists a b, t = a ++ "]" :: b /\ ~ In "]" a.
  Proof.
    induction t as [|c t IH]; [left; intros []|].
    destruct (Ascii.eqb_spec c "]") as [->|Hc]; [right; exists [], t; split; [reflexivity|intros []]|].
    destruct IH as [IH|(a & b & -> & Ha)].
    - left. intros [E|E]; [exact (Hc E)|exact (IH E)].
    - right. exists (c :: a), b. split; [reflexivity|]. intros [E|E]; [exact (Hc E)|exact (Ha E)].
  Qed.
  Theorem options_reject t :
    (exists bl body rest, blanks bl /\ ~ In "]" body /\ t = bl ++ "[" :: body ++ "]" :: rest) \/
    bind (op_writes moved op_init t) op_finish = Throw.
  Proof.
    induction t as [|c t IH]; [right; reflexivity|].
    destruct (Ascii.eqb_spec c " ") as [->|Hb].
    - destruct IH as [(bl & body & rest & H1 & H2 & ->)|IH].
      + left. exists (" " :: bl), body, rest. split; [constructor; [reflexivity|exact H1]|]. split; [exact H2|reflexivity].
      + right. exact IH.
    - destruct (Ascii.eqb_spec c "[") as [->|Hc].
      + destruct (cut_bracket t) as [H|(a & b & -> & H)].
        * right. destruct (op_inside t (mkOP ParseKey [] [] []) eq_refl H) as (q & Hq & Hi).
          change (op_writes moved op_init ("[" :: t)) with (op_writes moved (mkOP ParseKey [] [] []) t). rewrite Hq. cbn [bind].
          unfold op_finish. destruct (op_st q); try discriminate Hi; reflexivity.
        * left. exists [], a, b. split; [constructor|]. split; [exact H|reflexivity].
      + right. unfold op_writes. cbn [foldM]. unfold op_write at 1. cbn [op_st op_init]. unfold ceq.
        destruct (Ascii.eqb_spec c "["); [contradiction|]. destruct (Ascii.eqb_spec c " "); [contradiction|]. reflexivity.
  Qed.
End Rejects.
