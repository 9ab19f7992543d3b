(** Proofs for C62: the exported relaxation. *)
From Coq Require Import List ZArith QArith Qabs Bool Lia Lqa Sorting.Sorted Permutation.
From Verif Require Import ExprModel ExprSpec ExprProof ConstraintModel ConstraintSpec VariableModel TypeSpec PresolveModel PresolveSpec DuplicateModel DuplicateProof SparseModel SparseSpec SparseProof SparseProof2 SparseProof3 SparseProof4 LpModel LpSpec LpProof LpProof2.
Import ListNotations.
Local Open Scope Q_scope.

(** ** Columns *)
Lemma position_spec cols : forall v j, position cols v = Some j -> (j < length cols)%nat /\ nth_error cols j = Some v.
Proof.
  induction cols as [|w cols IH]; intros v j E; [discriminate|]. cbn [position] in E. destruct (Nat.eqb_spec w v) as [Ew|].
  - inversion E. subst. cbn. split; [lia|reflexivity].
  - destruct (position cols v) as [j'|] eqn:E'; [|discriminate]. inversion E. subst j. destruct (IH v j' E') as (A & B). cbn. split; [lia|exact B].
Qed.
Definition point (cols : list nat) (y : nat -> Z) : vec := map (fun v => inject_Z (y v)) cols.
Lemma point_at cols y j v : nth_error cols j = Some v -> at_ (point cols y) j = inject_Z (y v).
Proof. intros E. unfold at_, point. apply nth_error_nth. now rewrite nth_error_map, E. Qed.

(** ** Rows *)
Definition free_lin (vs : vars) (s : sens) (y : nat -> Z) : Q := total (map (fun p => if va_fixed (vs (fst p)) then 0 else snd p * inject_Z (y (fst p))) s).
Lemma records_spec vs cols c y : forall s r, row_records vs cols c s = Ok r ->
  total (map (fun p => snd p * at_ (point cols y) (fst p)) r) == row_sign c (free_lin vs s y) /\ forall p, In p r -> (fst p < length cols)%nat.
Proof.
  induction s as [|[v a] s IH]; intros r E; cbn [row_records] in E.
  - inversion E. split; [|intros p []]. unfold row_sign, free_lin. destruct (ct_sense c); cbn; reflexivity.
  - unfold free_lin in *. cbn [map total fst snd]. destruct (va_fixed (vs v)) eqn:F.
    + destruct (IH r E) as (A & B). split; [|exact B]. rewrite A. unfold row_sign. destruct (ct_sense c); ring.
    + destruct (position cols v) as [j|] eqn:Pj; [|discriminate]. destruct (row_records vs cols c s) as [r'| |]; try discriminate. cbn [bind] in E. inversion E. subst r. destruct (IH r' eq_refl) as (A & B). destruct (position_spec cols v j Pj) as (Lj & Nj). split.
      * cbn [map total fst snd]. rewrite (point_at cols y j v Nj), A. unfold row_sign. destruct (ct_sense c); ring.
      * intros p [<-|Hp]; [exact Lj|now apply B].
Qed.
Lemma sorted_spec vs cols c y r : row_sorted vs cols c = Ok r ->
  total (map (fun p => snd p * at_ (point cols y) (fst p)) r) == row_sign c (free_lin vs (ex_sens (ct_expr c)) y) /\ forall p, In p r -> (fst p < length cols)%nat.
Proof.
  unfold row_sorted. intros E. destruct (row_records vs cols c (ex_sens (ct_expr c))) as [r'| |] eqn:E'; try discriminate. cbn [bind] in E. inversion E as [E0]. clear E. destruct (records_spec vs cols c y _ r' E') as (A & B).
  pose proof (sort_perm (fun a b : nat * Q => Nat.ltb (fst a) (fst b)) r') as Pm. split.
  - rewrite <- A. apply total_perm. now apply Permutation_map.
  - intros p Hp. apply B. now apply (Permutation_in p Pm).
Qed.
Lemma all_records_spec vs cols (y : nat -> Z) : forall rows i ts, all_records vs cols i rows = Ok ts ->
  (forall t, In t ts -> (i <= row t < i + length rows)%nat /\ (col t < length cols)%nat) /\ StronglySorted Peano.le (map row ts) /\
  forall k c, nth_error rows k = Some c -> row_sum ts (at_ (point cols y)) (i + k) == row_sign c (free_lin vs (ex_sens (ct_expr c)) y).
Proof.
  induction rows as [|c rows IH]; intros i ts E; cbn [all_records] in E.
  - inversion E. split; [intros t []|]. split; [constructor|]. intros [|k] c; discriminate.
  - destruct (row_sorted vs cols c) as [r| |] eqn:Er; try discriminate. cbn [bind] in E. destruct (all_records vs cols (S i) rows) as [rest| |] eqn:Et; try discriminate. cbn [bind] in E. inversion E. subst ts. clear E.
    destruct (IH (S i) rest Et) as (A & B & C). destruct (sorted_spec vs cols c y r Er) as (D & F). cbn [length].
    assert (Rw : forall t, In t (map (fun p : nat * Q => (i, fst p, snd p)) r) -> row t = i /\ (col t < length cols)%nat). { intros t Ht. apply in_map_iff in Ht as (p & <- & Hp). split; [reflexivity|]. now apply F. }
    split; [|split].
    + intros t Ht. apply in_app_or in Ht as [Ht|Ht]; [destruct (Rw t Ht); lia|]. destruct (A t Ht). lia.
    + rewrite map_app. clear - A B. rewrite map_map. cbn. induction r as [|p r IHr]; cbn [map app]; [exact B|]. constructor; [exact IHr|]. apply Forall_forall. intros n Hn. apply in_app_or in Hn as [Hn|Hn].
      * apply in_map_iff in Hn as (q & <- & _). unfold row. cbn. lia.
      * apply in_map_iff in Hn as (t & <- & Ht). destruct (A t Ht). unfold row in *. cbn. lia.
    + intros k c' Hk. unfold row_sum. rewrite map_app, total_app. destruct k as [|k].
      * cbn in Hk. inversion Hk. subst c'. rewrite Nat.add_0_r. rewrite (total_zero _ rest). 2: { intros t Ht. destruct (A t Ht). destruct (Nat.eqb_spec (row t) i); [lia|reflexivity]. }
        rewrite Qplus_0_r, <- D, map_map. apply total_ext. intros p _. unfold row, col. cbn [fst snd]. now rewrite Nat.eqb_refl.
      * cbn in Hk. rewrite (total_zero _ (map _ r)). 2: { intros t Ht. destruct (Rw t Ht) as (R1 & _). destruct (Nat.eqb_spec (row t) (i + S k)); [lia|reflexivity]. }
        rewrite Qplus_0_l, <- (C k c' Hk). unfold row_sum. replace (i + S k)%nat with (S i + k)%nat by lia. reflexivity.
Qed.
Lemma constant_split vs y : legal vs y -> forall s a, fold_left (fun q (p : nat * Q) => if va_fixed (vs (fst p)) then q + inject_Z (va_value (vs (fst p))) * snd p else q) s a + free_lin vs s y ==
  fold_left (fun acc (p : nat * Q) => acc + inject_Z (y (fst p)) * snd p) s a.
Proof.
  intros Lg s. induction s as [|[v c] s IH]; intros a; unfold free_lin; cbn [map total fold_left fst snd]; [ring|]. fold (free_lin vs s y). destruct (va_fixed (vs v)) eqn:F.
  - rewrite <- IH, (proj1 (Lg v) F). ring_simplify. reflexivity.
  - rewrite <- (IH (a + inject_Z (y v) * c)). clear IH.
    assert (Sh : forall s b d, fold_left (fun q (p : nat * Q) => if va_fixed (vs (fst p)) then q + inject_Z (va_value (vs (fst p))) * snd p else q) s (b + d) == fold_left (fun q (p : nat * Q) => if va_fixed (vs (fst p)) then q + inject_Z (va_value (vs (fst p))) * snd p else q) s b + d).
    { clear. induction s as [|p s IH]; intros b d; cbn [fold_left]; [reflexivity|]. destruct (va_fixed (vs (fst p))); [|apply IH]. rewrite <- IH.
      assert (Eq : forall s b b', b == b' -> fold_left (fun q (p : nat * Q) => if va_fixed (vs (fst p)) then q + inject_Z (va_value (vs (fst p))) * snd p else q) s b == fold_left (fun q (p : nat * Q) => if va_fixed (vs (fst p)) then q + inject_Z (va_value (vs (fst p))) * snd p else q) s b').
      { clear. induction s as [|p s IH]; intros b b' E; cbn [fold_left]; [exact E|]. apply IH. destruct (va_fixed (vs (fst p))); [now rewrite E|exact E]. }
      apply Eq. ring. }
    rewrite Sh. ring.
Qed.
Lemma row_value vs y c : legal vs y -> row_constant vs c + free_lin vs (ex_sens (ct_expr c)) y == e_eval (ct_expr c) y.
Proof. intros L. apply (constant_split vs y L). Qed.

(** ** The objective *)
Lemma coef_total (s : sens) y U : NoDup U -> NoDup (map fst s) -> (forall v, In v (map fst s) -> In v U) -> total (map (fun v => coef s v * inject_Z (y v)) U) == lin s y.
Proof.
  intros NU. induction s as [|[v a] s IH]; intros NK Inc.
  - cbn [lin]. apply total_zero. intros w _. unfold coef. cbn. ring.
  - cbn [map fst] in NK, Inc. inversion NK as [|? ? Hv NK']. subst. cbn [lin fst snd].
    assert (E : forall w, coef ((v, a) :: s) w == (if Nat.eqb v w then a else 0) + coef s w).
    { intros w. unfold coef. cbn [sens_find]. destruct (Nat.eqb_spec v w) as [Ew|]; [|ring]. assert (N : sens_find s w = None) by (apply find_none; congruence). rewrite N. ring. }
    rewrite (total_ext _ (fun w => (if Nat.eqb v w then a * inject_Z (y v) else 0) + coef s w * inject_Z (y w))).
    2: { intros w _. rewrite E. destruct (Nat.eqb_spec v w) as [Ew|]; [subst|]; ring. }
    rewrite total_plus, IH by (auto; intros w Hw; apply Inc; now right).
    assert (D : forall U, NoDup U -> In v U -> total (map (fun w => if Nat.eqb v w then a * inject_Z (y v) else 0) U) == a * inject_Z (y v)).
    { clear. induction U as [|w U IH]; intros N Hi; [destruct Hi|]. inversion N as [|? ? Nw NU]; subst. cbn [map total]. destruct (Nat.eqb_spec v w) as [Ew|Nv].
      - rewrite total_zero; [ring|]. intros u Hu. destruct (Nat.eqb_spec v u) as [Eu|]; [|reflexivity]. congruence.
      - destruct Hi as [Hi|Hi]; [congruence|]. rewrite IH by assumption. ring. }
    rewrite D by (auto; apply Inc; now left). ring.
Qed.

(** ** The exported program *)
Definition columns (vs : vars) (order : list nat) : list nat := filter (fun v => negb (va_fixed (vs v))) order.
Lemma nth_repeat3 {A} (a b c : A) n1 n2 n3 i d : nth i (repeat a n1 ++ repeat b n2 ++ repeat c n3) d =
  if Nat.ltb i n1 then a else if Nat.ltb i (n1 + n2) then b else if Nat.ltb i (n1 + n2 + n3) then c else d.
Proof.
  assert (R : forall (q : A) n i, nth i (repeat q n) d = if Nat.ltb i n then q else d).
  { intros q n. induction n as [|n IH]; intros [|k]; cbn; try reflexivity. apply IH. }
  destruct (Nat.ltb_spec i n1). { rewrite app_nth1 by (now rewrite repeat_length). rewrite R. destruct (Nat.ltb_spec i n1); [reflexivity|lia]. }
  rewrite app_nth2 by (now rewrite repeat_length). rewrite repeat_length. destruct (Nat.ltb_spec i (n1 + n2)).
  { rewrite app_nth1 by (rewrite repeat_length; lia). rewrite R. destruct (Nat.ltb_spec (i - n1) n2); [reflexivity|lia]. }
  rewrite app_nth2 by (rewrite repeat_length; lia). rewrite repeat_length, R. destruct (Nat.ltb_spec (i - n1 - n2) n3), (Nat.ltb_spec i (n1 + n2 + n3)); lia || reflexivity.
Qed.
Lemma filter_nodup {A} (f : A -> bool) l : NoDup l -> NoDup (filter f l).
Proof. induction 1 as [|a l Ha N IH]; cbn; [constructor|]. destruct (f a); [|assumption]. constructor; [|assumption]. rewrite filter_In. tauto. Qed.
Lemma total_map_const {A} (f : A -> Q) (l : list A) : total (map f l) == fold_left (fun q a => q + f a) l 0.
Proof. rewrite fold_total. ring. Qed.
Lemma sum_list {A} (g : A -> Q) (l : list A) d : sum_below (length l) (fun j => g (nth j l d)) == total (map g l).
Proof. unfold sum_below. rewrite <- (map_nth_seq l d) at 2. now rewrite map_map. Qed.
Lemma nodup_app2 {A} (a b : list A) : NoDup a -> NoDup b -> (forall v, In v a -> ~ In v b) -> NoDup (a ++ b).
Proof. induction a as [|x a IH]; intros Na Nb D; cbn; [exact Nb|]. inversion Na; subst. constructor; [|apply IH; auto; intros v Hv; apply D; now right]. rewrite in_app_iff. intros [H|H]; [contradiction|]. apply (D x); [now left|exact H]. Qed.
Lemma triples_split (ts : list (nat * nat * Q)) : triples (map (fun t => fst (fst t)) ts) (map (fun t => snd (fst t)) ts) (map snd ts) = ts.
Proof. unfold triples. induction ts as [|[[a b] c] ts IH]; cbn; [reflexivity|]. now rewrite IH. Qed.

Theorem export_spec minimize obj vs order fixed less sels equals greater l : lists_ok obj vs order fixed less sels equals greater ->
  (forall v, In v order -> va_fixed (vs v) = false -> (va_lower (vs v) <= va_upper (vs v))%Z) ->
  export minimize obj vs order fixed less sels equals greater = Ok l ->
  lp_wf l /\ mt_row_scaler (lp_A l) = repeat 1 (lp_rows l) /\ mt_col_scaler (lp_A l) = repeat 1 (lp_cols l) /\
  (moderate_range vs order -> all_bounded l) /\
  lp_cols l = length (columns vs order) /\
  lp_offset l == (if minimize then 1 else -(1)) * total (map (fun v => inject_Z (va_value (vs v)) * coef (ex_sens obj) v) fixed) /\
  forall y, admitted vs less sels equals greater y -> lp_feasible l (point (columns vs order) y) /\
    lp_objective l (point (columns vs order) y) == (if minimize then 1 else -(1)) * (e_eval obj y - ex_const obj).
Proof.
  intros Lo Hb E. unfold export in E. fold (columns vs order) in E. set (cols := columns vs order) in *. set (ls := enabled true less) in *. set (es := enabled false sels ++ enabled true equals) in *. set (gs := enabled true greater) in *.
  set (rows := ls ++ es ++ gs) in *. destruct (all_records vs cols 0 rows) as [ts| |] eqn:Et; try discriminate. cbn [bind] in E.
  destruct (m_setup [] _ _ _ _ _) as [m| |] eqn:Em in E; try discriminate. cbn [bind] in E. destruct (m_transpose m) as [mt| |] eqn:Etr; try discriminate. cbn [bind] in E.
  assert (Cin : forall v, In v cols -> In v order /\ va_fixed (vs v) = false). { intros v Hv. apply filter_In in Hv as (H1 & H2). split; [exact H1|]. now destruct (va_fixed (vs v)). }
  destruct (all_records_spec vs cols (fun _ => 0%Z) rows 0 ts Et) as (A1 & A2 & _).
  destruct (setup_spec _ _ _ _ _ _ _ Em) as (L1 & L2 & B1 & B2 & V1 & V2 & V3 & V4 & V5 & V6 & V7 & V8).
  set (lo := map (fun v => inject_Z (va_lower (vs v))) cols) in *. set (hi := map (fun v => inject_Z (va_upper (vs v))) cols) in *.
  assert (Nl : forall j, (j < length cols)%nat -> exists v, In v cols /\ nth_error cols j = Some v). { intros j Hj. destruct (nth_error cols j) as [v|] eqn:Ev; [|apply nth_error_None in Ev; lia]. exists v. split; [now apply nth_error_In in Ev|reflexivity]. }
  assert (Vj : forall (f : nat -> Q) j v, nth_error cols j = Some v -> nth j (map f cols) 0 = f v). { intros f j v Hv. apply nth_error_nth. now rewrite nth_error_map, Hv. }
  assert (Sz : length rows = (length ls + length es + length gs)%nat) by (unfold rows; rewrite !app_length; lia).
  assert (Es : entries m = ts) by (unfold entries; rewrite V1, V2, V3; apply triples_split).
  apply (f_equal (fun o => match o with Ok a => a | _ => l end)) in E. cbn beta iota in E. rename E into El. set (off := fold_left _ fixed 0) in *. set (cc := map (fun v => coef (ex_sens obj) v) cols) in *.
  assert (W : lp_wf l).
  { rewrite <- El. constructor; cbn [lp_rows lp_cols lp_A lp_At lp_c lp_lo lp_hi lp_x0 lp_lo_open lp_hi_open lp_b lp_dlo lp_dhi lp_y0 lp_less lp_greater].
    - rewrite V1, V2, V3. exists m. split; [now symmetry|reflexivity].
    - rewrite V2. exact A2.
    - rewrite V7, V8, !repeat_length. repeat split; assumption.
    - exact Etr.
    - repeat split; try (now rewrite ?map_length).
      + destruct minimize; unfold cc; now rewrite ?map_length.
      + unfold lo. now rewrite map_length.
      + unfold hi. now rewrite map_length.
      + apply clamp_length; unfold lo, hi; now rewrite ?map_length.
    - rewrite map_length, !app_length, !repeat_length. repeat split; lia.
    - intros j Hj. destruct (Nl j Hj) as (v & Hv & Ev). unfold lo, hi. rewrite !(Vj _ j v Ev). destruct (Cin v Hv). rewrite <- Zle_Qle. auto.
    - intros j Hj. destruct (Nl j Hj) as (v & Hv & Ev). match goal with |- context [nth j (clamp ?a ?b ?c) 0] => change (nth j (clamp a b c) 0) with (at_ (clamp a b c) j) end.
      rewrite (clamp_at _ _ _ (length cols) j) by (unfold lo, hi; rewrite ?map_length; auto). rewrite !(LpProof2.nth_map_some _ j (length cols)) by (auto; unfold lo, hi; now rewrite map_length).
      apply LpProof2.clamp1_within. unfold lo, hi. rewrite !(Vj _ j v Ev). destruct (Cin v Hv). rewrite <- Zle_Qle. auto.
    - intros i Hi. cbn [fst snd]. rewrite nth_repeat3. destruct (Nat.ltb_spec i (length ls)); [split; [lia|discriminate]|]. destruct (Nat.ltb_spec i (length ls + length es)); [split; [congruence|lia]|]. destruct (Nat.ltb_spec i (length ls + length es + length gs)); [split; [lia|discriminate]|lia].
    - split; [|split].
      + intros q Hq. rewrite !in_app_iff in Hq. destruct Hq as [Hq|[Hq|Hq]]; apply repeat_spec in Hq; subst q; cbn; reflexivity || exact Logic.I.
      + intros q Hq. now apply repeat_spec in Hq.
      + intros q Hq. apply repeat_spec in Hq. now rewrite Hq. }
  split; [exact W|]. split; [rewrite <- El; exact V7|]. split; [rewrite <- El; exact V8|].
  assert (Off : lp_offset l == (if minimize then 1 else -(1)) * total (map (fun v => inject_Z (va_value (vs v)) * coef (ex_sens obj) v) fixed)).
  { rewrite <- El. cbn [lp_offset]. unfold off. rewrite total_map_const. destruct minimize; ring. }
  split; [|split; [now rewrite <- El|split; [exact Off|]]].
  - intros M j Hj. rewrite <- El in Hj |- *. cbn [lp_cols lp_lo_open lp_hi_open] in *. destruct (Nl j Hj) as (v & Hv & Ev). destruct (Cin v Hv) as (Ho & Hf). destruct (M v Ho Hf) as (M1 & M2).
    assert (N2 : forall f : nat -> bool, nth j (map f cols) false = f v) by (intros f; apply nth_error_nth; now rewrite nth_error_map, Ev). rewrite !N2. change FLAG_LOW with (-536870912)%Z. change FLAG_HIGH with 536870911%Z. split; apply Z.ltb_ge; assumption.
  - intros y (Lg & Sat & Sel). split; [split|].
    + rewrite <- El. split; cbn [lp_cols lp_lo lp_hi]; [apply map_length|]. intros j Hj. destruct (Nl j Hj) as (v & Hv & Ev). unfold lo, hi, point. rewrite !(Vj _ j v Ev). destruct (Cin v Hv) as (_ & Hf). destruct (proj2 (Lg v) Hf). rewrite <- !Zle_Qle. auto.
    + intros i Hi. pose proof (lhs_ax l (point cols y) i W) as EL. unfold ax in EL. revert EL. rewrite <- El in Hi |- *. cbn [lp_A lp_rows lp_dlo lp_b] in *. rewrite Es. intros EL.
      destruct (nth_error rows i) as [c|] eqn:Ec; [|apply nth_error_None in Ec; lia].
      destruct (all_records_spec vs cols y rows 0 ts Et) as (_ & _ & RS). rewrite (RS i c Ec) in EL.
      assert (Eb : nth i (map (fun k => - row_sign k (row_constant vs k)) rows) 0 = - row_sign c (row_constant vs c)) by (apply nth_error_nth; now rewrite nth_error_map, Ec).
      rewrite Eb. pose proof (row_value vs y c Lg) as RV.
      assert (Cs : ((i < length ls /\ In c less /\ ct_enabled c = true) \/ (length ls <= i < length ls + length es /\ In c (sels ++ equals) /\ (In c sels \/ In c equals /\ ct_enabled c = true)) \/ (length ls + length es <= i < length rows /\ In c greater /\ ct_enabled c = true))%nat).
      { unfold rows in Ec. destruct (Nat.lt_ge_cases i (length ls)) as [H|H].
        - rewrite nth_error_app1 in Ec by exact H. apply nth_error_In in Ec. unfold ls, enabled in Ec. apply filter_In in Ec as (X & Y). left. split; [exact H|]. split; [exact X|]. now destruct (ct_enabled c).
        - rewrite nth_error_app2 in Ec by exact H. right. destruct (Nat.lt_ge_cases (i - length ls) (length es)) as [H2|H2].
          + left. rewrite nth_error_app1 in Ec by exact H2. apply nth_error_In in Ec. split; [lia|]. unfold es, enabled in Ec. apply in_app_or in Ec as [Ec|Ec]; apply filter_In in Ec as (X & Y); rewrite in_app_iff; [tauto|]. split; [tauto|]. right. split; [exact X|]. now destruct (ct_enabled c).
          + right. rewrite nth_error_app2 in Ec by exact H2. apply nth_error_In in Ec. unfold gs, enabled in Ec. apply filter_In in Ec as (X & Y). split; [lia|]. split; [exact X|]. now destruct (ct_enabled c). }
      rewrite nth_repeat3. destruct Cs as [(H & I1 & I2)|[(H & I1 & I2)|(H & I1 & I2)]].
      * destruct (Nat.ltb_spec i (length ls)); [|lia]. rewrite EL. pose proof (lo_less _ _ _ _ _ _ _ _ Lo c I1) as Sn. assert (S : satisfies c y) by (apply Sat; auto; rewrite !in_app_iff; auto). unfold satisfies, holds in S. rewrite Sn in S. unfold row_sign. rewrite Sn. lra.
      * destruct (Nat.ltb_spec i (length ls)); [lia|]. destruct (Nat.ltb_spec i (length ls + length es)); [|lia]. rewrite EL. pose proof (lo_equal _ _ _ _ _ _ _ _ Lo c I1) as Sn.
        assert (S : satisfies c y). { destruct I2 as [I2|(I2 & I3)]; [now apply Sel|]. apply Sat; auto. rewrite !in_app_iff. auto. } unfold satisfies, holds in S. rewrite Sn in S. unfold row_sign. rewrite Sn. lra.
      * destruct (Nat.ltb_spec i (length ls)); [lia|]. destruct (Nat.ltb_spec i (length ls + length es)); [lia|]. destruct (Nat.ltb_spec i (length ls + length es + length gs)); [|lia]. rewrite EL. pose proof (lo_greater _ _ _ _ _ _ _ _ Lo c I1) as Sn. assert (S : satisfies c y) by (apply Sat; auto; rewrite !in_app_iff; auto). unfold satisfies, holds in S. rewrite Sn in S. unfold row_sign. rewrite Sn. lra.
    + unfold lp_objective. rewrite Off. rewrite <- El. cbn [lp_cols lp_c].
      assert (Tt : total (map (fun v => coef (ex_sens obj) v * inject_Z (y v)) (cols ++ fixed)) == lin (ex_sens obj) y).
      { apply coef_total.
        - apply nodup_app2; [apply filter_nodup, (lo_order _ _ _ _ _ _ _ _ Lo)|apply (lo_fixed _ _ _ _ _ _ _ _ Lo)|]. intros v Hv Hf. destruct (Cin v Hv) as (_ & F). rewrite (lo_are_fixed _ _ _ _ _ _ _ _ Lo v Hf) in F. discriminate.
        - apply (lo_objective _ _ _ _ _ _ _ _ Lo).
        - intros v Hv. pose proof (lo_listed _ _ _ _ _ _ _ _ Lo v Hv) as LL. rewrite in_app_iff. destruct (va_fixed (vs v)) eqn:F; [now right|]. left. apply filter_In. rewrite F. auto. }
      rewrite map_app, total_app in Tt. rewrite eval_lin, <- Tt.
      assert (T2 : total (map (fun v => inject_Z (va_value (vs v)) * coef (ex_sens obj) v) fixed) == total (map (fun v => coef (ex_sens obj) v * inject_Z (y v)) fixed)).
      { apply total_ext. intros v Hv. rewrite (proj1 (Lg v) (lo_are_fixed _ _ _ _ _ _ _ _ Lo v Hv)). ring. }
      rewrite T2.
      assert (T1 : sum_below (length cols) (fun j => nth j (if minimize then cc else map (fun q => q * (-(1))) cc) 0 * nth j (point cols y) 0) == (if minimize then 1 else -(1)) * total (map (fun v => coef (ex_sens obj) v * inject_Z (y v)) cols)).
      { rewrite <- (sum_list (fun v => coef (ex_sens obj) v * inject_Z (y v)) cols O), <- sum_scale. apply sum_ext. intros j Hj. destruct (Nl j Hj) as (v & Hv & Ev).
        rewrite (nth_error_nth cols j O Ev). unfold point. rewrite (Vj (fun v => inject_Z (y v)) j v Ev). unfold cc. destruct minimize; [rewrite (Vj _ j v Ev); ring|]. rewrite map_map, (Vj (fun v => coef (ex_sens obj) v * (-(1))) j v Ev). ring. }
      rewrite T1. ring.
Qed.
