(** Proofs for C44: files that are rejected. *)
From Coq Require Import List ZArith QArith Qabs Bool String Lia Lqa Permutation.
From Verif Require Import ExprModel ConstraintModel VariableModel PresolveModel TextModel MpsModel MpsSpec MpsProof MpsProof2.
Import ListNotations.
Local Open Scope Z_scope.
Local Open Scope list_scope.

Definition data (l : list string) : Prop := exists a b tl, l = a :: b :: tl /\ a <> "NAME"%string.
Lemma section_mode r l r' : read_section r l = Ok r' -> rd_mode r' = rd_mode r /\ rd_end r' = rd_end r.
Proof.
  unfold read_section, rd_with. intros H. destruct (rd_mode r) eqn:M; [injection H as <-; now rewrite M|..];
    (destruct (read_name (rd_mps r) l) + destruct (read_row (rd_mps r) l) + destruct (read_column (rd_mps r) (rd_int r) l) + destruct (read_rhs (rd_mps r) l) + destruct (read_range (rd_mps r) l) + destruct (read_bound (rd_mps r) l));
    cbn [bind] in H; try discriminate; injection H as <-; split; reflexivity.
Qed.
Lemma section_run k (P : mps -> Prop) ls : (forall l, In l ls -> data l) ->
  (forall r l r', In l ls -> rd_mode r = k -> P (rd_mps r) -> read_section r l = Ok r' -> P (rd_mps r')) ->
  forall r tl r', rd_mode r = k -> rd_end r = false -> P (rd_mps r) -> read_lines r (ls ++ tl) = Ok r' ->
  (forall l, In l ls -> exists r1 r2, rd_mode r1 = k /\ P (rd_mps r1) /\ read_section r1 l = Ok r2) /\
  exists r3, rd_mode r3 = k /\ rd_end r3 = false /\ P (rd_mps r3) /\ read_lines r3 tl = Ok r'.
Proof.
  induction ls as [|l ls IH]; intros D S r tl r' M E Pr R.
  - split; [intros l []|]. exists r. auto.
  - cbn [app read_lines] in R. destruct (D l (or_introl eq_refl)) as (a & b & t & -> & N). rewrite (line_section _ _ _ _ N) in R.
    destruct (read_section r (a :: b :: t)) as [r1| |] eqn:X; cbn [bind] in R; try discriminate. destruct (section_mode _ _ _ X) as [M1 E1]. rewrite E1, E in R.
    pose proof (S r _ r1 (or_introl eq_refl) M Pr X) as P1.
    destruct (IH (fun l Hl => D l (or_intror Hl)) (fun r0 l r2 Hl => S r0 l r2 (or_intror Hl)) r1 tl r' ltac:(congruence) ltac:(congruence) P1 R) as [A B].
    split; [|exact B]. intros l [<-|Hl]; [|now apply A]. exists r, r1. auto.
Qed.
Lemma header_run r h k tl r' : rd_end r = false -> read_line r [h] = Ok (set_mode r k) -> read_lines r ([h] :: tl) = Ok r' -> read_lines (set_mode r k) tl = Ok r'.
Proof. intros E H R. now rewrite (read_header r h tl k E H) in R. Qed.
Lemma row_data f rows : Forall2 row_items (f_rows f) rows -> forall l, In l rows -> data l.
Proof.
  intros F l H. destruct (In_nth_error _ _ H) as [i Hi]. clear H. revert i Hi. induction F as [|p l' ps ls H F IH]; intros i Hi; [destruct i; discriminate|].
  destruct i as [|i]; [|exact (IH i Hi)]. cbn in Hi. injection Hi as ->. unfold row_items in H. exists (row_name (fst p)), (snd p), []. split; [exact H|]. destruct (fst p); discriminate.
Qed.
Lemma entry_two es tl : entry_items es tl -> es <> [] -> exists n s t, tl = n :: s :: t.
Proof. destruct es as [|[r a] es]; [congruence|]. destruct tl as [|n [|s tl]]; cbn; try tauto. intros _ _. now exists n, s, tl. Qed.
Lemma column_data c l : column_items c l -> (forall v es, c = Column v es -> es <> []) -> data l.
Proof.
  destruct c as [b|v es]; cbn.
  - intros (a & k & -> & N) _. now exists a, k, [if b then "'INTORG'" else "'INTEND'"]%string.
  - intros (tl & -> & N & E) H. destruct (entry_two es tl E (H v es eq_refl)) as (n & s & t & ->). now exists v, n, (s :: t).
Qed.
Lemma forall2_in {A B} (P : A -> B -> Prop) l l' : Forall2 P l l' -> forall b, In b l' -> exists a, In a l /\ P a b.
Proof. induction 1 as [|a b l l' H F IH]; intros c; [intros []|]. intros [<-|Hc]; [exists a; split; [now left|exact H]|]. destruct (IH c Hc) as (d & D1 & D2). exists d. split; [now right|exact D2]. Qed.
Lemma forall2_in' {A B} (P : A -> B -> Prop) l l' : Forall2 P l l' -> forall a, In a l -> exists b, In b l' /\ P a b.
Proof. induction 1 as [|a b l l' H F IH]; intros c; [intros []|]. intros [<-|Hc]; [exists b; split; [now left|exact H]|]. destruct (IH c Hc) as (d & D1 & D2). exists d. split; [now right|exact D2]. Qed.

(** ** Rows *)
Definition row_dom (R : list string) (m : mps) : Prop :=
  (forall n c, lookup (mp_cons m) n = Some c -> In n R) /\ (mp_objective m = ""%string \/ In (mp_objective m) R).
Lemma store_dom {A} (m : list (string * A)) k a n b : lookup (store m k a) n = Some b -> n = k \/ lookup m n = Some b.
Proof. destruct (String.eqb_spec n k) as [->|D]; [now left|]. rewrite lookup_other by exact D. now right. Qed.
Lemma fold_ok {A B} (g : outcome A -> B -> outcome A) : (forall o b m, g o b = Ok m -> exists m0, o = Ok m0) ->
  forall l o m, fold_left g l o = Ok m -> exists m0, o = Ok m0.
Proof. intros G. induction l as [|b l IH]; intros o m H; cbn [fold_left] in H; [now exists m|]. destruct (IH _ _ H) as (m1 & H1). exact (G _ _ _ H1). Qed.
Lemma entries_known R v : forall es tl m m', entry_items es tl -> row_dom R m -> fold_left (add_entry v) (pairs_of tl) (Ok m) = Ok m' ->
  row_dom R m' /\ mp_vars m' = mp_vars m /\ forall r a, In (r, a) es -> (1 # 10000000000 < Qabs a)%Q -> r = ""%string \/ In r R.
Proof.
  induction es as [|[r a] es IH]; intros tl m m' E D H.
  - destruct tl; [|destruct E]. cbn in H. injection H as <-. split; [exact D|]. split; [reflexivity|intros ? ? []].
  - destruct tl as [|n [|s tl]]; cbn in E; try tauto. destruct E as (-> & (N & _) & E). cbn [pairs_of fold_left] in H.
    destruct (fold_ok (add_entry v) ltac:(intros [x| |] b y Y; [now exists x|discriminate..]) _ _ _ H) as (m1 & H1). rewrite H1 in H.
    unfold add_entry in H1. cbn [bind fst snd] in H1. unfold number in H1. rewrite N in H1. cbn [bind] in H1.
    assert (G : row_dom R m1 /\ mp_vars m1 = mp_vars m /\ ((1 # 10000000000 < Qabs a)%Q -> r = ""%string \/ In r R)).
    { unfold EPS10 in H1. destruct (Qlt_le_dec (1 # 10000000000) (Qabs a)) as [B|B]; [|injection H1 as <-; split; [exact D|]; split; [reflexivity|lra]].
      destruct (String.eqb_spec r (mp_objective m)) as [->|O].
      - injection H1 as <-. split; [exact D|]. split; [reflexivity|]. intros _. exact (proj2 D).
      - destruct (lookup (mp_cons m) r) as [c|] eqn:L; [|discriminate]. injection H1 as <-. destruct D as [D1 D2]. pose proof (D1 r c L) as Hr.
        split; [|split; [reflexivity|now right]]. split; [|exact D2]. intros n c' Hn. cbn [with_cons mp_cons] in Hn. destruct (store_dom _ _ _ _ _ Hn) as [->|X]; [exact Hr|exact (D1 _ _ X)]. }
    destruct G as (G1 & G2 & G3). destruct (IH tl m1 m' E G1 H) as (I1 & I2 & I3). split; [exact I1|]. split; [congruence|]. intros r0 a0 [X|X]; [|exact (I3 r0 a0 X)]. injection X as <- <-. exact G3.
Qed.
Lemma entry_not_marker es n s t : entry_items es (n :: s :: t) -> String.eqb s "'INTORG'" = false /\ String.eqb s "'INTEND'" = false.
Proof. destruct es as [|[r a] es]; cbn; [tauto|]. intros (_ & (_ & N1 & N2) & _). split; now apply String.eqb_neq. Qed.
Lemma column_step R m m' int int' c l : column_items c l -> (forall v es, c = Column v es -> es <> []) -> row_dom R m -> read_column m int l = Ok (m', int') ->
  row_dom R m' /\ (forall v es, c = Column v es -> forall r a, In (r, a) es -> (1 # 10000000000 < Qabs a)%Q -> r = ""%string \/ In r R) /\
  (forall n w, lookup (mp_vars m') n = Some w -> lookup (mp_vars m) n = Some w \/ exists es, c = Column n es).
Proof.
  destruct c as [b|v es]; cbn [column_items].
  - intros (a & k & -> & N) _ D H. cbn [read_column] in H. assert (X : m' = m) by (destruct b; cbn in H; congruence). subst m'. split; [exact D|]. split; [discriminate|auto].
  - intros (tl & -> & N & E) Ne D H. destruct (entry_two es tl E (Ne v es eq_refl)) as (n & s & t & ->). destruct (entry_not_marker _ _ _ _ E) as [E1 E2].
    cbn [read_column] in H. rewrite E1, E2 in H. destruct (fold_left (add_entry v) (pairs_of (n :: s :: t)) (Ok m)) as [m1| |] eqn:F; cbn [bind] in H; try discriminate.
    injection H as <- <-. destruct (entries_known R v es _ m m1 E D F) as (G1 & G2 & G3). split; [unfold add_variable; destruct (lookup (mp_vars m1) v); exact G1|].
    split; [intros v' es' X; injection X as <- <-; exact G3|]. intros n0 w. unfold add_variable. destruct (lookup (mp_vars m1) v); [rewrite G2; now left|]. cbn [mp_vars]. intros Hn.
    destruct (store_dom _ _ _ _ _ Hn) as [->|X]; [right; now exists es|left; congruence].
Qed.
Lemma row_step R m m' p l : row_items p l -> In (snd p) R -> row_dom R m -> read_row m l = Ok m' -> row_dom R m' /\ mp_vars m' = mp_vars m.
Proof.
  intros -> Hp (D1 & D2). destruct p as [k n]. cbn [fst snd] in *.
  assert (A : forall s, row_dom R (add_row m n s) /\ mp_vars (add_row m n s) = mp_vars m).
  { intros s. split; [|reflexivity]. split; [|exact D2]. intros n0 c H. unfold add_row in H. cbn [with_cname with_cons mp_cons] in H. destruct (store_dom _ _ _ _ _ H) as [->|X]; [exact Hp|exact (D1 _ _ X)]. }
  destruct k; cbn; intros H; injection H as <-; [|exact (A Less)|exact (A Equal)|exact (A Greater)]. split; [|reflexivity]. split; [exact D1|right; exact Hp].
Qed.
Lemma rhs_vars m l m' : read_rhs m l = Ok m' -> mp_vars m' = mp_vars m.
Proof.
  assert (G : forall ps m m', fold_left add_rhs ps (Ok m) = Ok m' -> mp_vars m' = mp_vars m).
  { induction ps as [|p ps IH]; intros m0 m1 H; cbn [fold_left] in H; [congruence|]. destruct (fold_ok add_rhs ltac:(intros [x| |] b y Y; [now exists x|discriminate..]) _ _ _ H) as (m2 & H2). rewrite H2 in H.
    rewrite (IH _ _ H). unfold add_rhs in H2. cbn [bind] in H2. destruct (number (snd p)); cbn [bind] in H2; try discriminate. injection H2 as <-. reflexivity. }
  unfold read_rhs. destruct l as [|a [|b [|c l]]]; try discriminate. apply G.
Qed.
Lemma bound_known m b v l m' : bound_items (b, v) l -> read_bound m l = Ok m' -> (exists w, lookup (mp_vars m) v = Some w) /\ (forall n w, lookup (mp_vars m') n = Some w -> n = v \/ lookup (mp_vars m) n = Some w).
Proof.
  intros H R. destruct (lookup (mp_vars m) v) as [w|] eqn:L.
  - rewrite (bound_read m b v l w H L) in R. injection R as <-. split; [now exists w|]. intros n u Hn. cbn [with_vars mp_vars] in Hn. exact (store_dom _ _ _ _ _ Hn).
  - exfalso. destruct H as (set & H). cbn [fst snd] in H. destruct b; try destruct H as (s & H & _); subst l; unfold read_bound in R; rewrite L in R; discriminate.
Qed.
(** ** The file *)
Lemma reject lines f m : contains lines f -> (forall v es, In (Column v es) (f_cols f) -> es <> []) -> read_mps lines = Ok m ->
  (forall v r a, In (v, r, a) (triples (f_cols f)) -> (1 # 10000000000 < Qabs a)%Q -> r = ""%string \/ In r (map snd (f_rows f))) /\
  (forall b v, In (b, v) (f_bounds f) -> In v (columns f)).
Proof.
  intros (name & rows & cols & rhs & bounds & rt & bt & rest & gs & L & FR & FC & Gs & FG & Or & FB & Ob) Ne H.
  unfold read_mps in H. destruct (read_blank (map items_of lines) rd_init) as [B|B]; [|discriminate]. rewrite B, L in H. clear B L.
  destruct (read_lines rd_init _) as [r'| |] eqn:R; cbn [bind] in H; try discriminate. clear H m.
  set (m0 := mkMps name [] [] "" [] [] []).
  assert (S0 : forall tl, read_lines rd_init (["NAME"; name] :: ["ROWS"] :: tl)%string = read_lines (mkR MRows false m0 false) tl) by reflexivity. rewrite S0 in R. clear S0.
  set (RS := map snd (f_rows f)) in *.
  destruct (section_run MRows (fun m => row_dom RS m /\ mp_vars m = []) rows (row_data f rows FR)) with (r := mkR MRows false m0 false) (tl := ["COLUMNS"%string] :: cols ++ rt ++ bt ++ ["ENDATA"%string] :: rest) (r' := r') as [_ (r1 & M1 & E1 & [D1 V1] & R1)]; try reflexivity; try exact R.
  { intros r l r2 Hl M [D V] X. destruct (forall2_in _ _ _ FR l Hl) as (p & Hp & P). unfold read_section in X. rewrite M in X. unfold rd_with in X.
    destruct (read_row (rd_mps r) l) as [m1| |] eqn:Y; cbn [bind] in X; try discriminate. injection X as <-. cbn [rd_mps].
    destruct (row_step RS _ _ p l P (in_map snd _ _ Hp) D Y) as [Z1 Z2]. split; [exact Z1|congruence]. }
  { split; [|reflexivity]. split; [discriminate|now left]. }
  apply (header_run _ _ MColumns) in R1; [|exact E1|reflexivity].
  assert (Cd : forall l, In l cols -> data l). { intros l Hl. destruct (forall2_in _ _ _ FC l Hl) as (c & Hc & P). apply (column_data c l P). intros v es ->. exact (Ne v es Hc). }
  assert (Step : forall r l r2, In l cols -> rd_mode r = MColumns -> (row_dom RS (rd_mps r) /\ (forall n w, lookup (mp_vars (rd_mps r)) n = Some w -> In n (columns f))) ->
            read_section r l = Ok r2 -> exists c, In c (f_cols f) /\ column_items c l /\ row_dom RS (rd_mps r2) /\
            (forall v es, c = Column v es -> forall r a, In (r, a) es -> (1 # 10000000000 < Qabs a)%Q -> r = ""%string \/ In r RS) /\ (forall n w, lookup (mp_vars (rd_mps r2)) n = Some w -> In n (columns f))).
  { intros r l r2 Hl M [D V] X. destruct (forall2_in _ _ _ FC l Hl) as (c & Hc & P). exists c. split; [exact Hc|]. split; [exact P|]. unfold read_section in X. rewrite M in X.
    destruct (read_column (rd_mps r) (rd_int r) l) as [[m1 i]| |] eqn:Y; cbn [bind] in X; try discriminate. injection X as <-. cbn [rd_mps fst].
    destruct (column_step RS _ _ _ _ c l P ltac:(intros v es ->; exact (Ne v es Hc)) D Y) as (Z1 & Z2 & Z3). split; [exact Z1|]. split; [exact Z2|].
    intros n w Hn. destruct (Z3 n w Hn) as [Q|[es ->]]; [exact (V n w Q)|]. unfold columns. apply names_in. right. now exists es. }
  destruct (section_run MColumns (fun m => row_dom RS m /\ (forall n w, lookup (mp_vars m) n = Some w -> In n (columns f))) cols Cd) with (r := set_mode r1 MColumns) (tl := rt ++ bt ++ ["ENDATA"%string] :: rest) (r' := r') as [A2 (r2 & M2 & E2 & [_ V2] & R2)]; try exact R1; try reflexivity; try exact E1.
  { intros r l r2 Hl M D X. destruct (Step r l r2 Hl M D X) as (c & _ & _ & Z1 & _ & Z3). auto. }
  { cbn [set_mode rd_mps]. split; [exact D1|]. rewrite V1. discriminate. }
  split.
  - intros v r a Ht Ba. unfold triples in Ht. apply in_flat_map in Ht. destruct Ht as (c & Hc & Ht). destruct c as [b|w es]; [destruct Ht|]. apply in_map_iff in Ht. destruct Ht as ([r0 a0] & Eq & Ht). cbn in Eq. injection Eq as -> -> ->.
    destruct (forall2_in' _ _ _ FC _ Hc) as (l & Hl & P). destruct (A2 l Hl) as (ra & rb & Ma & Da & X). destruct (Da) as [D1' _].
    unfold read_section in X. rewrite Ma in X. destruct (read_column (rd_mps ra) (rd_int ra) l) as [[m1 i]| |] eqn:Y; cbn [bind] in X; try discriminate.
    destruct (column_step RS _ _ _ _ (Column v es) l P ltac:(intros v' es' Z; injection Z as <- <-; exact (Ne v es Hc)) D1' Y) as (_ & Z2 & _). exact (Z2 v es eq_refl r a Ht Ba).
  - assert (R3 : exists r3, rd_end r3 = false /\ (forall n w, lookup (mp_vars (rd_mps r3)) n = Some w -> In n (columns f)) /\ read_lines r3 (bt ++ ["ENDATA"%string] :: rest) = Ok r').
    { destruct Or as [-> | [_ ->]]; [|exists r2; auto]. cbn [app] in R2. apply (header_run _ _ MRhs) in R2; [|exact E2|reflexivity].
      assert (Rd : forall l, In l rhs -> data l). { intros l Hl. destruct (forall2_in _ _ _ FG l Hl) as (es & _ & Ne' & n & tl & -> & N & E). destruct (entry_two es tl E Ne') as (n' & s & t & ->). now exists n, n', (s :: t). }
      destruct (section_run MRhs (fun m => forall n w, lookup (mp_vars m) n = Some w -> In n (columns f)) rhs Rd) with (r := set_mode r2 MRhs) (tl := bt ++ ["ENDATA"%string] :: rest) (r' := r') as [_ (r3 & _ & E3 & V3 & R3)]; try exact R2; try reflexivity; try exact E2; try exact V2.
      - intros r l rz Hl M V X. unfold read_section in X. rewrite M in X. unfold rd_with in X. destruct (read_rhs (rd_mps r) l) as [m1| |] eqn:Y; cbn [bind] in X; try discriminate. injection X as <-. cbn [rd_mps]. rewrite (rhs_vars _ _ _ Y). exact V.
      - exists r3. auto. }
    destruct R3 as (r3 & E3 & V3 & R3). intros b v Hb. destruct Ob as [-> | [-> ->]]; [|inversion FB as [Q|]; rewrite <- Q in Hb; destruct Hb].
    cbn [app] in R3. apply (header_run _ _ MBounds) in R3; [|exact E3|reflexivity].
    assert (Bd : forall l, In l bounds -> data l). { intros l Hl. destruct (forall2_in _ _ _ FB l Hl) as ([b' v'] & _ & P). destruct (bound_head b' v' l P) as (k & t & u & tl & -> & N). now exists k, t, (u :: tl). }
    assert (St : forall r l rz, In l bounds -> rd_mode r = MBounds -> (forall n w, lookup (mp_vars (rd_mps r)) n = Some w -> In n (columns f)) -> read_section r l = Ok rz ->
              (forall b' v', bound_items (b', v') l -> In v' (columns f)) /\ forall n w, lookup (mp_vars (rd_mps rz)) n = Some w -> In n (columns f)).
    { intros r l rz Hl M V X. unfold read_section in X. rewrite M in X. unfold rd_with in X. destruct (read_bound (rd_mps r) l) as [m1| |] eqn:Y; cbn [bind] in X; try discriminate. injection X as <-. cbn [rd_mps].
      assert (K : forall b' v', bound_items (b', v') l -> In v' (columns f)) by (intros b' v' P; destruct (bound_known _ _ _ _ _ P Y) as [[w W] _]; exact (V v' w W)). split; [exact K|].
      destruct (forall2_in _ _ _ FB l Hl) as ([b' v'] & _ & P). destruct (bound_known _ _ _ _ _ P Y) as [_ Z]. intros n w Hn. destruct (Z n w Hn) as [->|Q]; [exact (K b' v' P)|exact (V n w Q)]. }
    destruct (section_run MBounds (fun m => forall n w, lookup (mp_vars m) n = Some w -> In n (columns f)) bounds Bd) with (r := set_mode r3 MBounds) (tl := ["ENDATA"%string] :: rest) (r' := r') as [A4 _]; try exact R3; try reflexivity; try exact E3; try exact V3.
    + intros r l rz Hl M V X. exact (proj2 (St r l rz Hl M V X)).
    + destruct (forall2_in' _ _ _ FB _ Hb) as (l & Hl & P). destruct (A4 l Hl) as (ra & rb & Ma & Va & X). exact (proj1 (St ra l rb Hl Ma Va X) b v P).
Qed.

(** ** Ranges *)
Lemma append_longer (a b : string) : append a b = a -> b = ""%string.
Proof. induction a as [|c a IH]; cbn; intros H; [exact H|]. injection H as H. exact (IH H). Qed.
Lemma ranges_empty m n s c (a : Q) : lookup (mp_cons m) n = Some c -> atof s = Some a -> ~ (a == 0)%Q ->
  exists m' c', add_range (Ok m) (n, s) = Ok m' /\ lookup (mp_cons m') (append n "_range") = Some c' /\ lookup (mp_cons m') n = Some c /\
  forall q : Q, ~ (ConstraintSpec.holds q (mc_sense c) (mc_rhs c) /\ ConstraintSpec.holds q (mc_sense c') (mc_rhs c')).
Proof.
  intros L A Z. unfold add_range. cbn [bind fst snd]. unfold number. rewrite A. cbn [bind]. unfold get. rewrite L.
  assert (D : n <> append n "_range") by (intros X; symmetry in X; apply append_longer in X; discriminate).
  assert (P : (0 < Qabs a)%Q). { destruct (Qlt_le_dec 0 (Qabs a)) as [X|X]; [exact X|]. exfalso. apply Z. pose proof (Qabs_Qle_condition a 0) as [Y _]. specialize (Y X). lra. }
  assert (G : forall sr : csense * Q, (forall q : Q, ~ (ConstraintSpec.holds q (mc_sense c) (mc_rhs c) /\ ConstraintSpec.holds q (fst sr) (snd sr))) ->
    exists m' c', (let '(s0, r) := sr in Ok (with_cname (with_cons m (store (store (mp_cons m) n c) (append n "_range") (mkMc s0 (mc_sens c) r))) (append n "_range"))) = Ok m' /\
    lookup (mp_cons m') (append n "_range") = Some c' /\ lookup (mp_cons m') n = Some c /\
    forall q : Q, ~ (ConstraintSpec.holds q (mc_sense c) (mc_rhs c) /\ ConstraintSpec.holds q (mc_sense c') (mc_rhs c'))).
  { intros [s0 r] H. eexists. eexists. split; [reflexivity|]. cbn [with_cname with_cons mp_cons]. split; [apply lookup_same|]. split; [rewrite lookup_other by exact D; apply lookup_same|]. exact H. }
  apply G. intros q. destruct (mc_sense c); [..|]; try destruct (Qlt_le_dec 0 a); cbn [fst snd ConstraintSpec.holds]; lra.
Qed.
