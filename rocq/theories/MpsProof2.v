(** Proofs for C44: right-hand sides, bounds, the whole file, the imported model. *)
From Coq Require Import List ZArith QArith Qabs Bool String Lia Lqa Permutation.
From Verif Require Import ExprModel ExprSpec ExprProof ConstraintModel ConstraintSpec VariableModel PresolveModel TextModel MpsModel MpsSpec MpsProof.
Import ListNotations.
Local Open Scope Z_scope.
Local Open Scope list_scope.

(** ** RHS *)
Definition rhs_in (l : list (string * Q)) (r : string) : Q := match find (fun p => String.eqb (fst p) r) l with Some p => snd p | None => 0%Q end.
Lemma rhs_in_snoc l r q r' : ~ In r (map fst l) -> rhs_in (l ++ [(r, q)]) r' = if String.eqb r r' then q else rhs_in l r'.
Proof.
  intros N. unfold rhs_in. induction l as [|[n a] l IH]; cbn [app find fst]; [destruct (String.eqb r r'); reflexivity|].
  cbn in N. destruct (String.eqb_spec n r') as [-> | D].
  - rewrite (proj2 (String.eqb_neq r r')) by (intros ->; tauto). reflexivity.
  - apply IH. tauto.
Qed.
Section Sections.
Variable rows : list (row_kind * string).
Variable obj : string.
Hypothesis one_objective : map snd (filter (fun p => match fst p with KN => true | _ => false end) rows) = [obj].
Hypothesis rows_distinct : NoDup (map snd rows).
Notation coefs := (coefs_done rows obj).
Definition con_rows : list string := map snd (filter (fun p => match fst p with KN => false | _ => true end) rows).
Lemma con_row r : In r con_rows -> exists k, In (k, r) rows /\ k <> KN.
Proof.
  unfold con_rows. intros H. apply in_map_iff in H. destruct H as ([k n] & E & H). cbn in E. subst n. apply filter_In in H. destruct H as [H1 H2]. exists k. split; [exact H1|]. now intros ->.
Qed.
Lemma rhs_read ts P m r s q : coefs ts (rhs_in P) m -> atof s = Some q -> In r con_rows -> ~ In r (map fst P) ->
  exists m', add_rhs (Ok m) (r, s) = Ok m' /\ coefs ts (rhs_in (P ++ [(r, q)])) m' /\ vars_same m m'.
Proof.
  intros (C1 & C2 & C3 & C4) A Hr N. unfold add_rhs. cbn [bind fst snd]. unfold number. rewrite A. cbn [bind]. destruct (con_row r Hr) as (k & Hk & K).
  unfold get. rewrite (C4 k r Hk K). cbn [mc_sense mc_sens]. eexists. split; [reflexivity|]. split; [|split; reflexivity].
  split; [exact C1|]. split; [exact C2|]. split; [exact C3|]. intros k' r' H' K'. cbn [with_cons mp_cons]. rewrite (rhs_in_snoc P r q r' N).
  destruct (String.eqb_spec r r') as [<- | D]; [rewrite lookup_same; now rewrite (row_once rows rows_distinct _ _ _ H' Hk)|].
  rewrite lookup_other by auto. now apply C4.
Qed.
Lemma rhs_line_read ts : forall es tl P m, coefs ts (rhs_in P) m -> entry_items es tl -> (forall r a, In (r, a) es -> In r con_rows) -> NoDup (map fst (P ++ es)) ->
  exists m', fold_left add_rhs (pairs_of tl) (Ok m) = Ok m' /\ coefs ts (rhs_in (P ++ es)) m' /\ vars_same m m'.
Proof.
  induction es as [|[r a] es IH]; intros tl P m C E R N.
  - destruct tl; [|destruct E]. exists m. cbn. rewrite app_nil_r. split; [reflexivity|]. split; [exact C|split; reflexivity].
  - destruct tl as [|n [|s tl]]; try destruct E. destruct H0 as [(Hs & _) E']. subst n. cbn [pairs_of fold_left].
    assert (Fr : ~ In r (map fst P)). { rewrite map_app in N. cbn [map fst snd] in N. apply NoDup_remove_2 in N. intros X. apply N, in_app_iff. now left. }
    destruct (rhs_read ts P m r s a C Hs (R r a (or_introl eq_refl)) Fr) as (m1 & A1 & A2 & A3). rewrite A1.
    replace (P ++ (r, a) :: es) with ((P ++ [(r, a)]) ++ es) in * by (rewrite <- app_assoc; reflexivity).
    destruct (IH tl _ m1 A2 E' (fun r' a' H => R r' a' (or_intror H)) N) as (m2 & B1 & B2 & [B3 B4]). exists m2. split; [exact B1|]. split; [exact B2|].
    destruct A3 as [A3 A4]. split; congruence.
Qed.
Lemma rhs_section ts : forall gs ls r0 P, Forall2 rhs_items gs ls -> rd_mode r0 = MRhs -> rd_end r0 = false -> coefs ts (rhs_in P) (rd_mps r0) ->
  (forall r a, In (r, a) (List.concat gs) -> In r con_rows) -> NoDup (map fst (P ++ List.concat gs)) ->
  exists m, read_lines r0 ls = Ok (mkR MRhs (rd_int r0) m false) /\ coefs ts (rhs_in (P ++ List.concat gs)) m /\ vars_same (rd_mps r0) m.
Proof.
  induction gs as [|g gs IH]; intros ls r0 P F M E C R N.
  - inversion F; subst. exists (rd_mps r0). cbn [List.concat]. rewrite app_nil_r. split; [|split; [exact C|split; reflexivity]]. cbn. destruct r0; cbn in *; subst; reflexivity.
  - inversion F as [|x l xs ls' H1 H2]; subst. cbn [read_lines List.concat] in *. destruct H1 as (Hg & n & tl & -> & Hn & He).
    assert (Two : exists a b t, tl = a :: b :: t). { destruct g as [|[r a] g]; [congruence|]. destruct tl as [|b [|c t]]; try destruct He. now exists b, c, t. }
    destruct Two as (a & b & t & ->). rewrite line_section by exact Hn. unfold read_section. rewrite M. cbn [read_rhs].
    destruct (rhs_line_read ts g (a :: b :: t) P (rd_mps r0) C He) as (m1 & A1 & A2 & A3 & A4).
    { intros r q H. apply (R r q), in_app_iff. now left. } { rewrite app_assoc, map_app in N. exact (nodup_left _ _ N). }
    rewrite A1. cbn [rd_with bind rd_end]. rewrite E, M. rewrite app_assoc in *.
    destruct (IH ls' (mkR MRhs (rd_int r0) m1 false) (P ++ g) H2 eq_refl eq_refl A2) as (m2 & B1 & B2 & B3 & B4).
    { intros r q H. apply (R r q), in_app_iff. now right. } { exact N. }
    exists m2. split; [exact B1|]. split; [exact B2|]. cbn [rd_mps] in *. split; congruence.
Qed.
End Sections.

(** ** BOUNDS *)
Definition bstep (v : mps_var) (b : bound) : mps_var :=
  match b with
  | BLo z => bound_4 "LO" z v | BLi z => bound_4 "LI" z v | BUp z => bound_4 "UP" z v | BUi z => bound_4 "UI" z v | BFx z => bound_4 "FX" z v
  | BFr => bound_3 "FR" v | BMi => bound_3 "MI" v | BPl => bound_3 "PL" v | BBv => bound_3 "BV" v
  end.
Definition bounds_for (bs : list (bound * string)) (v : string) : list bound := map fst (filter (fun p => String.eqb (snd p) v) bs).
Lemma trunc_int q z : (q == inject_Z z)%Q -> Qtrunc q = z.
Proof. intros H. destruct q as [a b]. unfold Qeq in H. cbn in H. unfold Qtrunc. cbn [Qnum Qden]. rewrite Z.mul_1_r in H. subst a. apply Z.quot_mul. discriminate. Qed.
Lemma int_read s z : int_numeral s z -> bind (number s) (fun q => bind (to_int (Qtrunc q)) (fun y => Ok y)) = Ok z.
Proof.
  intros (H & q & A & E). unfold number. rewrite A. cbn [bind]. rewrite (trunc_int q z E). unfold to_int.
  rewrite (proj2 (Z.leb_le _ _) (proj1 H)), (proj2 (Z.leb_le _ _) (proj2 H)). reflexivity.
Qed.
Lemma bound_read m b v items w : bound_items (b, v) items -> lookup (mp_vars m) v = Some w -> read_bound m items = Ok (with_vars m (store (mp_vars m) v (bstep w b))).
Proof.
  intros (set & H) L. cbn [fst snd] in H.
  assert (G : forall k s z, int_numeral s z -> read_bound m [k; set; v; s] = Ok (with_vars m (store (mp_vars m) v (bound_4 k z w)))).
  { intros k s z (Hz & q & A & E). unfold read_bound. rewrite L. unfold number. rewrite A. cbn [bind]. rewrite (trunc_int q z E). unfold to_int.
    rewrite (proj2 (Z.leb_le _ _) (proj1 Hz)), (proj2 (Z.leb_le _ _) (proj2 Hz)). reflexivity. }
  destruct b; try (destruct H as (s & -> & Hs); exact (G _ s z Hs)); subst items; unfold read_bound; rewrite L; reflexivity.
Qed.
Lemma bound_head b v items : bound_items (b, v) items -> exists k t u tl, items = k :: t :: u :: tl /\ k <> "NAME"%string.
Proof. intros (set & H). cbn in H. destruct b; try destruct H as (s & -> & _); try subst items; eexists _, _, _, _; (split; [reflexivity|discriminate]). Qed.
Section Bounds.
Variable names : list string.
Variable init : string -> mps_var.
Definition bounds_done (bs : list (bound * string)) (m : mps) : Prop :=
  forall v, In v names -> lookup (mp_vars m) v = Some (fold_left bstep (bounds_for bs v) (init v)).
Definition frame_vars (m m' : mps) : Prop := mp_vnames m' = mp_vnames m /\ mp_cnames m' = mp_cnames m /\ mp_cons m' = mp_cons m /\ mp_objective m' = mp_objective m /\ mp_obj_sens m' = mp_obj_sens m.
Lemma bounds_section : forall bs ls r0 bs0, Forall2 bound_items bs ls -> rd_mode r0 = MBounds -> rd_end r0 = false -> bounds_done bs0 (rd_mps r0) ->
  (forall b v, In (b, v) bs -> In v names) ->
  exists m, read_lines r0 ls = Ok (mkR MBounds (rd_int r0) m false) /\ bounds_done (bs0 ++ bs) m /\ frame_vars (rd_mps r0) m.
Proof.
  induction bs as [|[b v] bs IH]; intros ls r0 bs0 F M E D R.
  - inversion F; subst. exists (rd_mps r0). rewrite app_nil_r. split; [|split; [exact D|repeat split]]. cbn. destruct r0; cbn in *; subst; reflexivity.
  - inversion F as [|x l xs ls' H1 H2]; subst. cbn [read_lines]. destruct (bound_head b v l H1) as (k & t & u & tl & El & Hk).
    assert (Ln : read_line r0 l = read_section r0 l) by (rewrite El; now apply line_section). rewrite Ln. unfold read_section. rewrite M.
    pose proof (R b v (or_introl eq_refl)) as Hv. rewrite (bound_read (rd_mps r0) b v l _ H1 (D v Hv)). cbn [rd_with bind rd_end]. rewrite E, M.
    replace (bs0 ++ (b, v) :: bs) with ((bs0 ++ [(b, v)]) ++ bs) by (rewrite <- app_assoc; reflexivity).
    set (m1 := with_vars (rd_mps r0) _).
    assert (D1 : bounds_done (bs0 ++ [(b, v)]) m1).
    { intros w Hw. unfold m1, bounds_for. cbn [with_vars mp_vars]. rewrite filter_app, map_app, fold_left_app. cbn [filter snd]. destruct (String.eqb_spec v w) as [<- | Dv].
      - rewrite lookup_same. reflexivity.
      - rewrite lookup_other by auto. cbn [map fold_left]. now apply D. }
    destruct (IH ls' (mkR MBounds (rd_int r0) m1 false) (bs0 ++ [(b, v)]) H2 eq_refl eq_refl D1 (fun b' v' H => R b' v' (or_intror H))) as (m2 & B1 & B2 & B3).
    exists m2. split; [exact B1|]. split; [exact B2|exact B3].
Qed.
End Bounds.

(** ** The whole file *)
Definition mps_of (f : content) (obj : string) (m : mps) : Prop :=
  mp_cnames m = constraint_rows f /\ mp_vnames m = columns f /\ mp_obj_sens m = row_entries (triples (f_cols f)) obj /\
  (forall k r, In (k, r) (f_rows f) -> k <> KN -> lookup (mp_cons m) r = Some (mkMc (sense_of k) (row_entries (triples (f_cols f)) r) (rhs_of f r))) /\
  (forall v, In v (columns f) -> lookup (mp_vars m) v = Some (default_bounds (fold_left bstep (bounds_of f v) (mkMv (marked (f_cols f) false v) 0 INT_HALF_MAX 0 false false)))).
Lemma read_header r h tl k : rd_end r = false -> read_line r [h] = Ok (set_mode r k) -> read_lines r ([h] :: tl) = read_lines (set_mode r k) tl.
Proof. intros E H. cbn [read_lines]. rewrite H. cbn [bind set_mode rd_end]. now rewrite E. Qed.
Lemma file_read lines f obj : well_formed f obj -> contains lines f -> exists m, read_mps lines = Ok m /\ mps_of f obj m.
Proof.
  intros (W1 & W2 & W3 & W4 & W5 & W6 & W7 & W8 & W9) (name & rows & cols & rhs & bounds & rt & bt & rest & gs & L & FR & FC & Gs & FG & Or & FB & Ob).
  unfold read_mps. destruct (read_blank (map items_of lines) rd_init) as [B|B]; [|discriminate]. rewrite B, L. clear B L.
  set (m0 := mkMps name [] [] "" [] [] []).
  assert (S0 : forall tl, read_lines rd_init (["NAME"; name] :: ["ROWS"] :: tl)%string = read_lines (mkR MRows false m0 false) tl) by reflexivity.
  rewrite S0. clear S0.
  assert (R0 : rows_done [] m0). { repeat split; try reflexivity; intros; try contradiction; try discriminate. }
  destruct (rows_read (f_rows f) rows (mkR MRows false m0 false) [] FR eq_refl eq_refl R0 W2) as (m1 & A1 & A2). cbn [app] in A2.
  rewrite (read_lines_app _ _ _ _ A1 eq_refl). rewrite (read_header (mkR MRows _ m1 false) "COLUMNS" _ MColumns eq_refl eq_refl). cbn [set_mode rd_int rd_mps rd_end].
  destruct A2 as (P1 & P2 & P3 & P4 & P5 & P6 & P7).
  assert (C0 : coefs_done (f_rows f) obj (triples []) (rhs_in []) m1). { split; [exact P4|]. split; [exact (P5 obj W1)|]. split; [exact P2|]. intros k r H K. exact (P6 k r H K). }
  assert (V0 : vars_done [] m1). { split; [exact P3|]. split; [intros v []|]. intros v _. now rewrite P1. }
  destruct (columns_read (f_rows f) obj W1 W2 (rhs_in []) (f_cols f) cols (mkR MColumns false m1 false) [] FC eq_refl eq_refl eq_refl C0 V0 W3 (fun v r a H => proj1 (W4 v r a H)) W5) as (m2 & B1 & B2 & B3).
  cbn [app] in B1, B2, B3. rewrite (read_lines_app _ _ _ _ B1 eq_refl).
  assert (RS : exists r3, read_lines (mkR MColumns (open_after (f_cols f) false) m2 false) rt = Ok r3 /\ rd_end r3 = false /\ coefs_done (f_rows f) obj (triples (f_cols f)) (rhs_in (f_rhs f)) (rd_mps r3) /\ vars_same m2 (rd_mps r3)).
  { assert (X : forall r1, rd_mode r1 = MRhs -> rd_end r1 = false -> rd_mps r1 = m2 -> exists m3, read_lines r1 rhs = Ok (mkR MRhs (rd_int r1) m3 false) /\ coefs_done (f_rows f) obj (triples (f_cols f)) (rhs_in (f_rhs f)) m3 /\ vars_same m2 m3).
    { intros r1 X1 X2 X3. destruct (rhs_section (f_rows f) obj W2 (triples (f_cols f)) gs rhs r1 [] FG X1 X2) as (m3 & Y1 & Y2 & Y3).
      - rewrite X3. exact B2.
      - intros r a H. rewrite Gs in H. exact (W7 r a H).
      - cbn [app]. rewrite Gs. exact W6.
      - exists m3. cbn [app] in Y2. rewrite Gs in Y2. rewrite X3 in Y3. auto. }
    destruct Or as [-> | [E1 ->]].
    - rewrite (read_header (mkR MColumns _ m2 false) "RHS" _ MRhs eq_refl eq_refl). destruct (X (set_mode (mkR MColumns (open_after (f_cols f) false) m2 false) MRhs) eq_refl eq_refl eq_refl) as (m3 & Y1 & Y2 & Y3).
      eexists. split; [exact Y1|]. auto.
    - subst rhs. inversion FG; subst. cbn in Gs. eexists. split; [reflexivity|]. split; [reflexivity|]. rewrite <- Gs. split; [exact B2|split; reflexivity]. }
  destruct RS as (r3 & D1 & D2 & D3 & D4). rewrite (read_lines_app _ _ _ _ D1 D2).
  assert (Bd0 : bounds_done (columns f) (fun v => mkMv (marked (f_cols f) false v) 0 INT_HALF_MAX 0 false false) [] (rd_mps r3)).
  { intros v Hv. destruct B3 as (_ & B3 & _). destruct D4 as [D4 _]. rewrite D4. exact (B3 v Hv). }
  assert (BS : exists r4, read_lines r3 bt = Ok r4 /\ rd_end r4 = false /\ bounds_done (columns f) (fun v => mkMv (marked (f_cols f) false v) 0 INT_HALF_MAX 0 false false) (f_bounds f) (rd_mps r4) /\ frame_vars (rd_mps r3) (rd_mps r4)).
  { destruct Ob as [-> | [E1 ->]].
    - assert (Hd : read_line r3 ["BOUNDS"%string] = Ok (set_mode r3 MBounds)) by reflexivity. rewrite (read_header _ _ _ MBounds D2 Hd).
      destruct (bounds_section (columns f) _ (f_bounds f) bounds (set_mode r3 MBounds) [] FB eq_refl D2 Bd0 W8) as (m4 & Y1 & Y2 & Y3).
      eexists. split; [exact Y1|]. auto.
    - subst bounds. inversion FB; subst. exists r3. split; [reflexivity|]. split; [exact D2|]. split; [exact Bd0|repeat split]. }
  destruct BS as (r4 & E1 & E2 & E3 & E4). rewrite (read_lines_app _ _ _ _ E1 E2).
  assert (En : read_lines r4 (["ENDATA"%string] :: rest) = Ok (mkR (rd_mode r4) (rd_int r4) (rd_mps r4) true)) by reflexivity. rewrite En. cbn [bind rd_end rd_mps].
  eexists. split; [reflexivity|]. destruct D3 as (C1 & C2 & C3 & C4). destruct E4 as (F1 & F2 & F3 & F4 & F5). unfold mps_of. cbn [with_vars mp_cnames mp_vnames mp_obj_sens mp_cons mp_vars].
  split; [rewrite F2; exact C1|]. split; [rewrite F1; destruct D4 as [_ D4]; rewrite D4; exact (proj1 B3)|]. split; [rewrite F5; exact C3|].
  split; [intros k r H K; rewrite F3; exact (C4 k r H K)|]. intros v Hv. rewrite lookup_map, (E3 v Hv). reflexivity.
Qed.
