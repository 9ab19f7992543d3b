(** Proofs for C44: the imported model. *)
From Coq Require Import List ZArith QArith Qabs Bool String Lia Lqa Permutation.
From Verif Require Import ExprModel ExprSpec ExprProof ConstraintModel ConstraintSpec VariableModel PresolveModel TextModel MpsModel MpsSpec MpsProof MpsProof2.
Import ListNotations.
Local Open Scope Z_scope.
Local Open Scope list_scope.

Lemma collect_all {A B} (f : A -> outcome B) (P : A -> B -> Prop) l : (forall a, In a l -> exists b, f a = Ok b /\ P a b) -> exists bs, collect f l = Ok bs /\ Forall2 P l bs.
Proof.
  induction l as [|a l IH]; intros H; [exists []; split; [reflexivity|constructor]|]. destruct (H a (or_introl eq_refl)) as (b & B1 & B2).
  destruct (IH (fun x Hx => H x (or_intror Hx))) as (bs & C1 & C2). exists (b :: bs). cbn [collect]. rewrite B1. cbn [bind]. rewrite C1. cbn [bind]. split; [reflexivity|now constructor].
Qed.
Lemma forall2_nth {A B} (P : A -> B -> Prop) l l' : Forall2 P l l' -> forall i b, nth_error l' i = Some b -> exists a, nth_error l i = Some a /\ P a b.
Proof. induction 1 as [|a b l l' H1 H2 IH]; intros i c Hi; [destruct i; discriminate|]. destruct i as [|i]; cbn in *; [injection Hi as <-; now exists a|now apply IH]. Qed.
Lemma forall2_nth' {A B} (P : A -> B -> Prop) l l' : Forall2 P l l' -> forall i a, nth_error l i = Some a -> exists b, nth_error l' i = Some b /\ P a b.
Proof. induction 1 as [|a b l l' H1 H2 IH]; intros i c Hi; [destruct i; discriminate|]. destruct i as [|i]; cbn in *; [injection Hi as <-; now exists b|now apply IH]. Qed.
Lemma forall2_map {A B} (g : B -> A) l l' : Forall2 (fun a b => g b = a) l l' -> map g l' = l.
Proof. induction 1; cbn; congruence. Qed.
Lemma forall2_and {A B} (P R : A -> B -> Prop) l l' : Forall2 (fun a b => P a b /\ R a b) l l' -> Forall2 P l l' /\ Forall2 R l l'.
Proof. induction 1 as [|a b l l' [H1 H2] _ [IH1 IH2]]; split; constructor; auto. Qed.

(** ** Positions *)
Lemma position_in names n : In n names -> exists i, position names n = Some i /\ nth i names EmptyString = n /\ nth_error names i = Some n.
Proof.
  induction names as [|a names IH]; [intros []|]. intros H. cbn [position]. destruct (String.eqb_spec n a) as [-> | D].
  - exists 0%nat. auto.
  - destruct H as [->|H]; [congruence|]. destruct (IH H) as (i & P1 & P2 & P3). exists (S i). rewrite P1. auto.
Qed.
Definition named (names : list string) (y : string -> Z) : nat -> Z := fun i => y (nth i names EmptyString).
Lemma sens_sum names (y : string -> Z) l : (forall n a, In (n, a) l -> In n names) ->
  exists s, sens_of names l = Ok s /\ (lin s (named names y) == sum (map (fun p => (snd p * inject_Z (y (fst p)))%Q) l))%Q.
Proof.
  induction l as [|[n a] l IH]; intros H; [exists []; split; reflexivity|]. destruct (position_in names n (H n a (or_introl eq_refl))) as (i & P1 & P2 & _).
  destruct (IH (fun m b Hm => H m b (or_intror Hm))) as (s & S1 & S2). exists ((i, a) :: s). cbn [sens_of]. rewrite P1, S1. cbn [bind]. split; [reflexivity|].
  cbn [lin map sum fold_right fst snd]. unfold named at 1. rewrite P2. unfold sum in S2. rewrite S2. reflexivity.
Qed.
Lemma sens_once names l s : sens_of names l = Ok s -> forall y, (lin s (named names y) == sum (map (fun p => (snd p * inject_Z (y (fst p)))%Q) l))%Q.
Proof.
  revert s. induction l as [|[n a] l IH]; intros s H y; cbn [sens_of] in H; [injection H as <-; reflexivity|].
  destruct (position names n) as [i|] eqn:P; [|discriminate]. destruct (sens_of names l) as [s'| |] eqn:E; cbn [bind] in H; try discriminate. injection H as <-.
  cbn [lin map sum fold_right fst snd]. specialize (IH s' eq_refl y). unfold sum in IH. rewrite IH.
  assert (N : nth i names EmptyString = n). { clear - P. revert i P. induction names as [|b names IHn]; intros i P; cbn [position] in P; [discriminate|]. destruct (String.eqb_spec n b) as [->|D]; [now injection P as <-|].
    destruct (position names n) as [j|]; [|discriminate]. injection P as <-. cbn. now apply IHn. }
  unfold named at 1. rewrite N. reflexivity.
Qed.
(** Rows of the file and their stored entries. *)
Lemma entries_value ts (y : string -> Z) r : (forall v r a, In (v, r, a) ts -> (a == 0 \/ 1 # 10000000000 < Qabs a)%Q) ->
  (sum (map (fun p => (snd p * inject_Z (y (fst p)))%Q) (row_entries ts r)) ==
   sum (map (fun t => (snd t * inject_Z (y (fst (fst t))))%Q) (filter (fun t => String.eqb (snd (fst t)) r) ts)))%Q.
Proof.
  intros H. induction ts as [|[[v r'] a] ts IH]; [reflexivity|]. specialize (IH (fun w q b Hb => H w q b (or_intror Hb))).
  unfold row_entries in *. cbn [filter fst snd]. destruct (String.eqb r' r); cbn [andb]; [|exact IH]. unfold big. unfold EPS10. destruct (Qlt_le_dec (1 # 10000000000) (Qabs a)) as [B|B].
  - cbn [map sum fold_right fst snd]. unfold sum in IH. rewrite IH. reflexivity.
  - destruct (H v r' a (or_introl eq_refl)) as [Z|Z]; [|lra]. cbn [map]. cbn [sum fold_right fst snd]. unfold sum in IH. rewrite <- IH. assert (E : (a * inject_Z (y v) == 0)%Q) by (rewrite Z; ring). rewrite E. now rewrite Qplus_0_l.
Qed.
Lemma entry_names cs r n a : In (n, a) (row_entries (triples cs) r) -> In n (column_names cs []).
Proof.
  unfold row_entries. intros H. apply in_map_iff in H. destruct H as ([[v r'] b] & E & H). cbn in E. injection E as -> ->. apply filter_In in H. destruct H as [H _].
  unfold triples in H. apply in_flat_map in H. destruct H as ([c|w es] & H1 & H2); [destruct H2|]. apply in_map_iff in H2. destruct H2 as (e & E & _). injection E as <- _ _.
  apply names_in. right. now exists es.
Qed.

(** ** Bounds *)
Lemma bstep_effect b v : (mv_lower (bstep v b), mv_upper (bstep v b)) = bound_effect (mv_lower v, mv_upper v) b.
Proof. destruct b; reflexivity. Qed.
Lemma bounds_effect bs : forall v, (mv_lower (fold_left bstep bs v), mv_upper (fold_left bstep bs v)) = fold_left bound_effect bs (mv_lower v, mv_upper v).
Proof. induction bs as [|b bs IH]; intros v; cbn [fold_left]; [reflexivity|]. rewrite IH, bstep_effect. reflexivity. Qed.
Lemma bounds_defined bs : forall v, mv_defined (fold_left bstep bs v) = match bs with [] => mv_defined v | _ => true end.
Proof.
  assert (G : forall bs v, mv_defined v = true -> mv_defined (fold_left bstep bs v) = true). { induction bs0 as [|b bs0 IH]; intros v H; cbn [fold_left]; [exact H|]. apply IH. now destruct b. }
  destruct bs as [|b bs]; intros v; [reflexivity|]. cbn [fold_left]. apply G. now destruct b.
Qed.
Lemma bounds_integer bs : forall v, mv_integer (fold_left bstep bs v) = mv_integer v || existsb makes_integer bs.
Proof. induction bs as [|b bs IH]; intros v; cbn [fold_left existsb]; [now rewrite orb_false_r|]. rewrite IH. destruct b; cbn; destruct (mv_integer v); reflexivity. Qed.
Definition is_fx (b : bound) : bool := match b with BFx _ => true | _ => false end.
Lemma bounds_unfixed bs : forall v, existsb is_fx bs = false -> mv_fixed (fold_left bstep bs v) = mv_fixed v.
Proof. induction bs as [|b bs IH]; intros v H; cbn [fold_left existsb] in *; [reflexivity|]. apply orb_false_elim in H. destruct H as [H1 H2]. rewrite IH by exact H2. destruct b; try reflexivity. discriminate. Qed.
Lemma fx_split bs : existsb is_fx bs = true -> exists l z l', bs = l ++ BFx z :: l'.
Proof. intros H. apply existsb_exists in H. destruct H as (b & H1 & H2). destruct b; try discriminate. apply in_split in H1. destruct H1 as (l & l' & ->). now exists l, z, l'. Qed.
Lemma default_interval f v : let w := default_bounds (fold_left bstep (bounds_of f v) (mkMv (marked (f_cols f) false v) 0 INT_HALF_MAX 0 false false)) in
  (mv_lower w, mv_upper w) = interval f v /\ mv_integer w = integer f v /\
  ((forall l z l', bounds_of f v = l ++ BFx z :: l' -> l' = []) -> if mv_fixed w then interval f v = (mv_fixed_value w, mv_fixed_value w) else True).
Proof.
  cbv zeta. set (v0 := mkMv _ 0 INT_HALF_MAX 0 false false). unfold interval, integer.
  assert (D : mv_defined (fold_left bstep (bounds_of f v) v0) = match bounds_of f v with [] => false | _ => true end) by (rewrite bounds_defined; destruct (bounds_of f v); reflexivity).
  assert (I : mv_integer (fold_left bstep (bounds_of f v) v0) = marked (f_cols f) false v || existsb makes_integer (bounds_of f v)) by apply bounds_integer.
  assert (E : (mv_lower (fold_left bstep (bounds_of f v) v0), mv_upper (fold_left bstep (bounds_of f v) v0)) = fold_left bound_effect (bounds_of f v) (0, INT_HALF_MAX)) by apply bounds_effect.
  unfold default_bounds. rewrite D, I. destruct (bounds_of f v) as [|b bs] eqn:Eb.
  - cbn [fold_left existsb] in *. rewrite orb_false_r. cbn [negb andb]. unfold v0. destruct (marked (f_cols f) false v); cbn; auto.
  - cbn [negb andb]. split; [exact E|]. split; [exact I|]. intros Fx. destruct (existsb is_fx (b :: bs)) eqn:X.
    + destruct (fx_split _ X) as (l & z & l' & S). rewrite (Fx l z l' S) in S. rewrite S, !fold_left_app. reflexivity.
    + rewrite (bounds_unfixed _ _ X). reflexivity.
Qed.

(** What one imported variable is. *)
Definition var_ok (f : content) (n : string) (nv : string * var) : Prop :=
  fst nv = n /\ forall z, (if va_fixed (snd nv) then z = va_value (snd nv) else va_lower (snd nv) <= z <= va_upper (snd nv)) <-> fst (interval f n) <= z <= snd (interval f n).
Lemma import_var_ok f obj m accept n : well_formed f obj -> mps_of f obj m -> In n (columns f) -> fst (interval f n) <= snd (interval f n) -> (accept = true \/ integer f n = true) ->
  exists nv, import_var accept m n = Ok nv /\ var_ok f n nv.
Proof.
  intros W (_ & _ & _ & _ & M5) Hn Hi Ac. unfold import_var. rewrite (M5 n Hn). pose proof (default_interval f n) as D. cbv zeta in D.
  set (w := default_bounds _) in *. destruct D as (D1 & D2 & D3). destruct W as (_ & _ & _ & _ & _ & _ & _ & _ & W9). specialize (D3 (W9 n)).
  assert (Acc : negb (mv_integer w) && negb accept = false) by (rewrite D2; destruct Ac as [-> | ->]; [apply andb_false_r|reflexivity]). rewrite Acc.
  cbn [v_step]. rewrite <- D1 in Hi. cbn [fst snd] in Hi. assert (Lt : mv_upper w <? mv_lower w = false) by (apply Z.ltb_ge; exact Hi). rewrite Lt.
  destruct (mv_fixed w) eqn:Fx.
  - eexists. split; [reflexivity|]. split; [reflexivity|]. intros z. cbn [snd v_margin v_with_fixed v_with_value va_fixed va_value]. rewrite D3. cbn [fst snd]. lia.
  - eexists. split; [reflexivity|]. split; [reflexivity|]. intros z. cbn [snd v_margin va_fixed v_init va_lower va_upper]. rewrite <- D1. cbn [fst snd]. reflexivity.
Qed.
Definition con_ok (f : content) (n : string) (nc : string * constr) : Prop :=
  fst nc = n /\ forall y, let x := named (columns f) y in
  exists k, In (k, n) (f_rows f) /\ k <> KN /\ ct_sense (snd nc) = sense_of k /\ (e_eval (ct_expr (snd nc)) x == row_value f y n - rhs_of f n)%Q.
Lemma import_con_ok f obj m is01 n : well_formed f obj -> mps_of f obj m -> In n (constraint_rows f) -> exists nc, import_con m is01 n = Ok nc /\ con_ok f n nc.
Proof.
  intros W (_ & M2 & _ & M4 & _) Hn. destruct (con_row (f_rows f) n Hn) as (k & K1 & K2). unfold import_con. rewrite (M4 k n K1 K2). cbn [mc_sens mc_sense mc_rhs]. rewrite M2.
  destruct W as (_ & _ & _ & W4 & _).
  destruct (sens_sum (columns f) (fun _ => 0) (row_entries (triples (f_cols f)) n) (fun v a H => entry_names _ _ v a H)) as (s & S1 & _). rewrite S1. cbn [bind compare compare_expr].
  eexists. split; [reflexivity|]. split; [reflexivity|]. intros y. cbv zeta. exists k. split; [exact K1|]. split; [exact K2|]. split; [reflexivity|].
  cbn [snd c_setup ct_expr]. rewrite eval_lin. cbn [e_sub_value ex_const ex_sens]. rewrite (sens_once _ _ _ S1 y), entries_value by (intros v r a H; exact (proj2 (W4 v r a H))).
  unfold row_value. ring.
Qed.
Lemma holds_zero a b s q : (q == a - b)%Q -> holds q s 0 <-> holds a s b.
Proof. intros E. destruct s; cbn [holds]; rewrite E; split; lra. Qed.
Lemma import_ok lines f obj accept : well_formed f obj -> contains lines f ->
  (forall v, In v (columns f) -> fst (interval f v) <= snd (interval f v)) -> (accept = true \/ forall v, In v (columns f) -> integer f v = true) ->
  exists m im, read_mps lines = Ok m /\ import_mps accept m = Ok im /\
  map fst (im_vars im) = columns f /\ map fst (im_cons im) = constraint_rows f /\
  forall y, let x := fun i => y (nth i (columns f) EmptyString) in
  (admits (im_vars im) (im_cons im) x <-> feasible f y) /\ (e_eval (im_objective im) x == row_value f y obj)%Q.
Proof.
  intros W C Hi Ac. destruct (file_read lines f obj W C) as (m & R & M). pose proof M as (M1 & M2 & M3 & M4 & M5).
  destruct (collect_all (import_var accept m) (var_ok f) (columns f)) as (vs & V1 & V2).
  { intros v Hv. apply (import_var_ok f obj m accept v W M Hv (Hi v Hv)). destruct Ac as [->|Ac]; [now left|right; now apply Ac]. }
  set (is01 := fun v : nat => match nth_error vs v with Some (_, a) => match va_sense a with VBinary => true | _ => false end | None => false end).
  destruct (collect_all (import_con m is01) (con_ok f) (constraint_rows f)) as (cs & C1 & C2). { intros n Hn. exact (import_con_ok f obj m is01 n W M Hn). }
  destruct (sens_sum (columns f) (fun _ => 0) (row_entries (triples (f_cols f)) obj) (fun v a H => entry_names _ _ v a H)) as (s & S1 & _).
  exists m, (mkIm vs cs (mkExpr s 0)). split; [exact R|]. unfold import_mps. rewrite M1, M2, M3. rewrite V1. cbn [bind]. fold is01. rewrite C1. cbn [bind]. rewrite S1. split; [reflexivity|]. cbn [im_vars im_cons im_objective].
  destruct (forall2_and _ _ _ _ V2) as [V3 V4]. destruct (forall2_and _ _ _ _ C2) as [C3 C4].
  split; [exact (forall2_map fst _ _ V3)|]. split; [exact (forall2_map fst _ _ C3)|]. intros y. cbv zeta. change (fun i => y (nth i (columns f) EmptyString)) with (named (columns f) y).
  destruct W as (_ & W2 & _ & W4 & _). split.
  - unfold admits, feasible. split; intros [A1 A2]; split.
    + intros k r Hr Hk. assert (Hc : In r (constraint_rows f)) by (unfold constraint_rows; apply in_map_iff; exists (k, r); split; [reflexivity|apply filter_In; split; [exact Hr|destruct k; [congruence|reflexivity..]]]).
      destruct (In_nth_error _ _ Hc) as [i E]. destruct (forall2_nth' _ _ _ C2 i r E) as ([n c] & F1 & F2 & F3). cbn [fst snd] in *. subst n.
      destruct (F3 y) as (k' & G1 & G2 & G3 & G4). rewrite (once _ _ _ _ W2 Hr G1). apply nth_error_In in F1. specialize (A2 r c F1). rewrite G3 in A2. exact (proj1 (holds_zero _ _ _ _ G4) A2).
    + intros v Hv. destruct (In_nth_error _ _ Hv) as [i E]. destruct (forall2_nth' _ _ _ V2 i v E) as ([n a] & F1 & F2 & F3). cbn [fst snd] in *. apply F3. specialize (A1 i n a F1).
      unfold named in A1. rewrite (nth_error_nth _ _ EmptyString E) in A1. exact A1.
    + intros i n a Hn. destruct (forall2_nth _ _ _ V2 i _ Hn) as (v & E & F2 & F3). cbn [fst snd] in *. subst n. unfold named. rewrite (nth_error_nth _ _ EmptyString E). apply F3, A2. exact (nth_error_In _ _ E).
    + intros n c Hc. destruct (In_nth_error _ _ Hc) as [i E]. destruct (forall2_nth _ _ _ C2 i _ E) as (r & F1 & F2 & F3). cbn [fst snd] in *. subst n.
      destruct (F3 y) as (k' & G1 & G2 & G3 & G4). rewrite G3. apply (holds_zero _ _ _ _ G4). exact (A1 k' r G1 G2).
  - rewrite eval_lin. cbn [ex_const ex_sens]. rewrite (sens_once _ _ _ S1 y), entries_value by (intros v r a H; exact (proj2 (W4 v r a H))). unfold row_value. ring.
Qed.

(** ** Rejections *)
Lemma no_endata lines : (forall l, In l lines -> items_of l <> ["ENDATA"%string]) -> forall m, read_mps lines <> Ok m.
Proof.
  intros H m. unfold read_mps. assert (G : forall ls r, (forall l, In l ls -> l <> ["ENDATA"%string]) -> rd_end r = false -> forall r', read_lines r ls = Ok r' -> rd_end r' = false).
  { induction ls as [|l ls IH]; intros r Hl E r' R; cbn [read_lines] in R; [congruence|]. destruct (read_line r l) as [r1| |] eqn:L; cbn [bind] in R; try discriminate.
    assert (E1 : rd_end r1 = false).
    { assert (Sec : forall r2 l2, rd_end r2 = false -> forall r3, read_section r2 l2 = Ok r3 -> rd_end r3 = false).
      { intros r2 l2 X r3 Y. unfold read_section, rd_with in Y. destruct (rd_mode r2); [injection Y as <-; exact X|..];
          (destruct (read_name (rd_mps r2) l2) + destruct (read_row (rd_mps r2) l2) + destruct (read_column (rd_mps r2) (rd_int r2) l2) + destruct (read_rhs (rd_mps r2) l2) + destruct (read_range (rd_mps r2) l2) + destruct (read_bound (rd_mps r2) l2)); cbn [bind] in Y; try discriminate; injection Y as <-; exact X. }
      unfold read_line in L. destruct l as [|a l]; [injection L as <-; exact E|]. pose proof (Hl _ (or_introl eq_refl)) as Ne.
      destruct (String.eqb a "NAME"); [now apply (Sec (set_mode r MName) (a :: l))|].
      repeat match type of L with (if ?b then _ else _) = _ => destruct b eqn:?Hb end; try (injection L as <-; exact E); [|now apply (Sec r (a :: l))].
      exfalso. apply Ne. unfold single in *. destruct l; [|discriminate]. match goal with H : String.eqb a "ENDATA" = true |- _ => apply String.eqb_eq in H; now subst end. }
    rewrite E1 in R. exact (IH r1 (fun x Hx => Hl x (or_intror Hx)) E1 r' R). }
  destruct (read_lines rd_init (map items_of lines)) as [r| |] eqn:R; cbn [bind]; try discriminate.
  rewrite (fun A => G _ rd_init A eq_refl _ R); [discriminate|]. intros l0 Hl. apply in_map_iff in Hl. destruct Hl as (x & <- & Hx). now apply H.
Qed.
