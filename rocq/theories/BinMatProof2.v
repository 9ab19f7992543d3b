(** Proofs for C24 and C25. *)
From Coq Require Import List ZArith QArith Bool Arith Lia Permutation Lqa.
From Coq Require Import Relations.Relation_Operators Relations.Operators_Properties.
From Verif Require Import ExprModel BinMatModel BinMatSpec BinMatProof.
Import ListNotations.
Local Open Scope nat_scope.

(** ** Reachability *)
Definition incl_m (n : nat) (R S : mat) : Prop := forall i j, i < n -> j < n -> R i j = true -> S i j = true.
Definition sound (n : nat) (M R : mat) : Prop := forall i j, i < n -> j < n -> R i j = true -> path n M i j.

Lemma in_nonzeros n M i k : In k (nonzeros n M i) <-> k < n /\ M i k = true.
Proof. unfold nonzeros. rewrite filter_In, in_seq. intuition lia. Qed.
Lemma in_cells n i j : In (i, j) (cells n) <-> i < n /\ j < n.
Proof.
  unfold cells. rewrite in_flat_map. split.
  - intros (a & Ha & Hj). apply in_map_iff in Hj. destruct Hj as (b & E & Hb). injection E as -> ->. apply in_seq in Ha, Hb. lia.
  - intros [Hi Hj]. exists i. split; [apply in_seq; lia|]. apply in_map_iff. exists j. split; [reflexivity|apply in_seq; lia].
Qed.

Lemma cell_facts n M R u i j : i < n -> j < n -> incl_m n M R -> sound n M R ->
  let s := reach_cell n M (R, u) (i, j) in
  incl_m n R (fst s) /\ sound n M (fst s) /\ (snd s = false -> u = false /\ forall a b, fst s a b = R a b) /\
  (forall k, k < n -> M i k = true -> R k j = true -> fst s i j = true).
Proof.
  intros Hi Hj HM HS. cbv zeta. unfold reach_cell. destruct (R i j) eqn:E.
  - cbn. split; [intros ? ? ? ?; auto|]. split; [exact HS|]. auto.
  - destruct (existsb (fun k => R k j) (nonzeros n M i)) eqn:X; cbn [fst snd].
    + apply existsb_exists in X. destruct X as (k & Hk & Rk). apply in_nonzeros in Hk. destruct Hk as [Hk Mk].
      unfold set_entry. split; [|split; [|split]].
      * intros a b Ha Hb H. destruct ((a =? i) && (b =? j)); auto.
      * intros a b Ha Hb. destruct (Nat.eqb_spec a i) as [->|]; cbn [andb]; [destruct (Nat.eqb_spec b j) as [->|]; cbn [andb]|]; intros H.
        -- eapply t_trans; [apply t_step; split; [exact Hi|]; split; [exact Hk|exact Mk]|]. now apply HS.
        -- now apply HS.
        -- now apply HS.
      * intros; discriminate.
      * intros. now rewrite !Nat.eqb_refl.
    + split; [intros ? ? ? ?; auto|]. split; [exact HS|]. split; [auto|]. intros k Hk Mk Rk. exfalso.
      enough (existsb (fun k => R k j) (nonzeros n M i) = true) by congruence.
      apply existsb_exists. exists k. split; [now apply in_nonzeros|exact Rk].
Qed.

Lemma pass_facts n M : forall cs R u, (forall i j, In (i, j) cs -> i < n /\ j < n) -> incl_m n M R -> sound n M R ->
  let s := fold_left (reach_cell n M) cs (R, u) in
  incl_m n R (fst s) /\ sound n M (fst s) /\ (snd s = false -> u = false /\ forall a b, fst s a b = R a b) /\
  (forall i j k, In (i, j) cs -> k < n -> M i k = true -> R k j = true -> fst s i j = true).
Proof.
  induction cs as [|[i j] cs IH]; intros R u Hin HM HS; cbn [fold_left].
  - cbn. split; [intros ? ? ? ?; auto|]. split; [exact HS|]. split; [auto|]. intros i j k [].
  - destruct (Hin i j (or_introl eq_refl)) as [Hi Hj].
    destruct (cell_facts n M R u i j Hi Hj HM HS) as (C1 & C2 & C3 & C4). cbv zeta.
    destruct (reach_cell n M (R, u) (i, j)) as [R1 u1]. cbn [fst snd] in *.
    destruct (IH R1 u1) as (D1 & D2 & D3 & D4).
    { intros a b H. apply Hin. now right. }
    { intros a b Ha Hb H. apply C1; auto. }
    { exact C2. }
    split; [intros a b Ha Hb H; auto|]. split; [exact D2|]. split.
    + intros H. destruct (D3 H) as [E1 E2]. destruct (C3 E1) as [E3 E4]. split; [exact E3|]. intros a b. rewrite E2. apply E4.
    + intros a b k [E|H] Hk Mk Rk.
      * injection E as <- <-. apply D1; auto. eapply C4; eassumption.
      * eapply D4; try eassumption. destruct (Hin a b (or_intror H)). apply C1; auto.
Qed.

(** Walks as the list of vertices after the first. *)
Fixpoint chain (n : nat) (M : mat) (i : nat) (l : list nat) : Prop :=
  match l with [] => True | k :: tl => edge n M i k /\ chain n M k tl end.
Definition has_walks (n : nat) (M R : mat) (m : nat) : Prop :=
  forall l i, l <> [] -> length l <= m -> chain n M i l -> R i (last l i) = true.
Definition closed (n : nat) (M R : mat) : Prop :=
  forall i j k, i < n -> j < n -> k < n -> M i k = true -> R k j = true -> R i j = true.

Lemma last_cons_indep (l : list nat) k a b : last (k :: l) a = last (k :: l) b.
Proof. revert k. induction l as [|x l IH]; intros k; [reflexivity|]. cbn [last] in *. apply IH. Qed.
Lemma last_cons (l : list nat) k i : last (k :: l) i = last l k.
Proof. destruct l as [|x l]; [reflexivity|]. change (last (k :: x :: l) i) with (last (x :: l) i). apply last_cons_indep. Qed.
Lemma chain_ends n M : forall l i, l <> [] -> chain n M i l -> i < n /\ last l i < n.
Proof.
  induction l as [|k l IH]; intros i N C; [congruence|]. destruct C as [(E1 & E2 & E3) C]. split; [exact E1|].
  rewrite last_cons. destruct l as [|k' l]; [exact E2|]. apply (IH k); [discriminate|exact C].
Qed.

Lemma loop_facts n M : forall l R m, incl_m n M R -> sound n M R -> has_walks n M R m ->
  let R' := reach_loop n M l R in
  incl_m n M R' /\ sound n M R' /\ (closed n M R' \/ has_walks n M R' (m + l)).
Proof.
  induction l as [|l IH]; intros R m HM HS HW; cbn [reach_loop].
  - split; [exact HM|]. split; [exact HS|]. right. now rewrite Nat.add_0_r.
  - unfold reach_pass. pose proof (pass_facts n M (cells n) R false (fun i j H => proj1 (in_cells n i j) H) HM HS) as (P1 & P2 & P3 & P4).
    destruct (fold_left _ (cells n) (R, false)) as [R1 u1]. cbn [fst snd] in *.
    assert (HM1 : incl_m n M R1) by (intros a b Ha Hb H; apply P1; auto).
    destruct u1.
    + rewrite Nat.add_succ_r, <- Nat.add_succ_l. apply IH; [exact HM1|exact P2|].
      intros w i N L C. destruct w as [|k w]; [congruence|]. destruct C as [(E1 & E2 & E3) C].
      rewrite last_cons. destruct w as [|k' w].
      * cbn. apply HM1; auto.
      * destruct (chain_ends n M (k' :: w) k ltac:(discriminate) C) as [_ Hl].
        apply (P4 i _ k); [apply in_cells; auto|exact E2|exact E3|]. apply HW; [discriminate|cbn in *; lia|exact C].
    + split; [exact HM1|]. split; [exact P2|]. left. destruct (P3 eq_refl) as [_ E]. intros i j k Hi Hj Hk Mk Rk.
      apply (P4 i j k); [apply in_cells; auto|exact Hk|exact Mk|]. now rewrite <- E.
Qed.

Lemma chain_app n M : forall l1 l2 i, chain n M i (l1 ++ l2) <-> chain n M i l1 /\ chain n M (last l1 i) l2.
Proof.
  induction l1 as [|k l1 IH]; intros l2 i; cbn [app chain]; [cbn; tauto|]. rewrite IH, last_cons. tauto.
Qed.
Lemma chain_in n M : forall l i, chain n M i l -> forall v, In v l -> v < n.
Proof. induction l as [|k l IH]; intros i C v H; [destruct H|]. destruct C as [E C]. destruct H as [<-|H]; [apply E|]. eapply IH; eassumption. Qed.

Lemma path_chain n M i j : path n M i j -> exists l, l <> [] /\ chain n M i l /\ last l i = j.
Proof.
  intros H. induction H as [i j E|i k j _ (l1 & N1 & C1 & L1) _ (l2 & N2 & C2 & L2)].
  - exists [j]. split; [discriminate|]. split; [split; [exact E|exact I]|reflexivity].
  - exists (l1 ++ l2). split; [now destruct l1|]. split; [apply chain_app; rewrite L1; auto|].
    rewrite <- L2. destruct l2 as [|x l2]; [congruence|]. clear. revert i. induction l1 as [|y l1 IH]; intros i; [apply last_cons_indep|].
    cbn [app]. rewrite last_cons. apply IH.
Qed.
Lemma last_app_cons (l1 l2 : list nat) a i : last (l1 ++ a :: l2) i = last l2 a.
Proof. revert i. induction l1 as [|y l1 IH]; intros i; cbn [app]; rewrite last_cons; [reflexivity|]. apply IH. Qed.

Lemma dup_split (l : list nat) : ~ NoDup l -> exists a l1 l2 l3, l = l1 ++ a :: l2 ++ a :: l3.
Proof.
  induction l as [|x l IH]; intros H; [exfalso; apply H; constructor|].
  destruct (in_dec Nat.eq_dec x l) as [I|NI].
  - apply in_split in I. destruct I as (l2 & l3 & ->). exists x, [], l2, l3. reflexivity.
  - destruct IH as (a & l1 & l2 & l3 & ->); [intros K; apply H; now constructor|].
    exists a, (x :: l1), l2, l3. reflexivity.
Qed.
Lemma short_chain n M i j : path n M i j -> exists l, l <> [] /\ length l <= n /\ chain n M i l /\ last l i = j.
Proof.
  intros H. destruct (path_chain n M i j H) as (l & N & C & L). clear H.
  remember (length l) as m eqn:Em. revert l N C L Em. induction m as [m IH] using lt_wf_ind. intros l N C L Em.
  destruct (le_lt_dec (length l) n) as [Hle|Hgt]; [exists l; auto|].
  assert (ND : ~ NoDup l).
  { intros ND.
    assert (K : length l <= length (seq 0 n)).
    { apply NoDup_incl_length; [exact ND|]. intros v Hv. apply in_seq. pose proof (chain_in n M l i C v Hv). lia. }
    rewrite seq_length in K. lia. }
  apply dup_split in ND. destruct ND as (a & l1 & l2 & l3 & ->).
  apply (IH (length (l1 ++ a :: l3))) with (l := l1 ++ a :: l3).
  - subst m. rewrite !app_length. cbn [length]. rewrite app_length. cbn [length]. lia.
  - now destruct l1.
  - apply chain_app in C. destruct C as [C1 [E C2]]. apply chain_app in C2. destruct C2 as [C2 [_ C3]].
    apply chain_app. split; [exact C1|]. split; [exact E|exact C3].
  - rewrite <- L. rewrite last_app_cons. symmetry. rewrite (last_app_cons l1). now rewrite last_app_cons.
  - reflexivity.
Qed.

Lemma reachability_correct n M i j : i < n -> j < n -> reachability n M i j = true <-> path n M i j.
Proof.
  intros Hi Hj. unfold reachability.
  destruct (loop_facts n M n M 1) as (F1 & F2 & F3).
  - intros a b _ _ H. exact H.
  - intros a b Ha Hb H. apply t_step. split; [exact Ha|]. auto.
  - intros l a N L C. destruct l as [|k [|]]; [congruence| |cbn in L; lia]. destruct C as [E _]. apply E.
  - split; [now apply F2|]. intros P. destruct F3 as [Cl|W].
    + clear - P F1 Cl. apply Operators_Properties.clos_trans_t1n in P. induction P as [a b (E1 & E2 & E3)|a b c (E1 & E2 & E3) P IH].
      * now apply F1.
      * apply (Cl a c b); auto.
        clear - P. induction P as [? ? (E1 & E2 & E3)|? ? ? (E1 & E2 & E3) P IH]; auto.
    + destruct (short_chain n M i j P) as (l & N & L & C & <-). apply W; [exact N|lia|exact C].
Qed.

(** ** The GF(2) solver *)
From Verif Require Import ExprProof.

Fixpoint zsum (l : list nat) (x : nat -> Z) : Z := match l with [] => 0%Z | v :: tl => (x v + zsum tl x)%Z end.
Fixpoint xl (l : list nat) (g : nat -> bool) : bool := match l with [] => false | v :: tl => xorb (g v) (xl tl g) end.

Lemma zsum_odd l x : Z.odd (zsum l x) = xl l (fun v => Z.odd (x v)).
Proof. induction l as [|v l IH]; cbn [zsum xl]; [reflexivity|]. now rewrite Z.odd_add, IH. Qed.
Lemma zsum_ext l x y : (forall v, In v l -> x v = y v) -> zsum l x = zsum l y.
Proof. induction l as [|v l IH]; intros H; cbn; [reflexivity|]. rewrite (H v) by now left. rewrite IH; [reflexivity|]. intros; apply H; now right. Qed.
Lemma xl_ext l f g : (forall v, In v l -> f v = g v) -> xl l f = xl l g.
Proof. induction l as [|v l IH]; intros H; cbn; [reflexivity|]. rewrite (H v) by now left. rewrite IH; [reflexivity|]. intros; apply H; now right. Qed.
Lemma xl_perm l l' g : Permutation l l' -> xl l g = xl l' g.
Proof. induction 1; cbn; auto; [now rewrite IHPermutation| |congruence]. destruct (g x), (g y), (xl l g); reflexivity. Qed.
Lemma xl_filter l p g : xl l (fun v => p v && g v) = xl (filter p l) g.
Proof. induction l as [|v l IH]; cbn; [reflexivity|]. destruct (p v); cbn; rewrite IH; [reflexivity|]. now destruct (xl (filter p l) g). Qed.

Lemma xl_app l l' g : xl (l ++ l') g = xorb (xl l g) (xl l' g).
Proof. induction l as [|a l IH]; cbn; [now destruct (xl l' g)|]. rewrite IH. now destruct (g a), (xl l g), (xl l' g). Qed.
Lemma xsum_nth (bs : list nat) (g : nat -> bool) :
  xsum (length bs) (fun i => match nth_error bs i with Some v => g v | None => false end) = xl bs g.
Proof.
  induction bs as [|b l IH] using rev_ind; [reflexivity|]. rewrite app_length, Nat.add_1_r, xl_app. cbn [xsum xl].
  rewrite nth_error_app2, Nat.sub_diag by lia. cbn [nth_error]. rewrite <- IH. f_equal; [|now destruct (g b)].
  apply xsum_ext. intros k Hk. now rewrite nth_error_app1.
Qed.

(** Fixing the binaries. *)
Lemma fix_binaries_spec bs sol x : NoDup bs ->
  (forall i v, nth_error bs i = Some v -> fix_binaries bs sol x v = bit (sol i)) /\
  (forall v, ~ In v bs -> fix_binaries bs sol x v = x v).
Proof.
  intros ND. unfold fix_binaries.
  assert (H : forall m, m <= length bs -> let y := fold_left (fun x i => match nth_error bs i with Some v => set_val x v (bit (sol i)) | None => x end) (seq 0 m) x in
    (forall i v, i < m -> nth_error bs i = Some v -> y v = bit (sol i)) /\ (forall v, ~ In v bs -> y v = x v)).
  { induction m as [|m IH]; intros Hm; [cbn; split; [intros; lia|auto]|]. cbv zeta. rewrite seq_S, fold_left_app. cbn [fold_left plus].
    destruct (IH ltac:(lia)) as [I1 I2]. destruct (nth_error bs m) as [w|] eqn:E; [|apply nth_error_None in E; lia].
    assert (SV : forall (y : nat -> Z) a v, set_val y w a v = if v =? w then a else y v) by reflexivity.
    split.
    - intros i v Hi Hv. rewrite SV. destruct (Nat.eq_dec i m) as [->|N].
      + rewrite E in Hv. injection Hv as <-. now rewrite Nat.eqb_refl.
      + destruct (Nat.eqb_spec v w) as [->|]; [|apply I1; [lia|exact Hv]]. exfalso. apply N.
        apply (proj1 (NoDup_nth_error bs) ND); [lia|congruence].
    - intros v Hv. rewrite SV. destruct (Nat.eqb_spec v w) as [->|]; [|now apply I2]. exfalso. apply Hv. apply nth_error_In with m. exact E. }
  destruct (H _ (le_n _)) as [H1 H2]. split; [|exact H2]. intros i v Hv. apply H1; [|exact Hv]. apply nth_error_Some. congruence.
Qed.

(** Fixing the keys. *)
Definition key_value (x : nat -> Z) (c : gf2c) : Z :=
  Qtrunc (- (ex_const (fst c) + inject_Z (zsum (nonkey c) x)) / coef (ex_sens (fst c)) (snd c))%Q.

Lemma fold_sum l x : forall a, (fold_left (fun a v => a + inject_Z (x v)) l a == a + inject_Z (zsum l x))%Q.
Proof.
  induction l as [|v l IH]; intros a; cbn [fold_left zsum]; [change (inject_Z 0) with 0%Q; lra|].
  rewrite IH, inject_Z_plus. lra.
Qed.
Lemma Qtrunc_comp a b : (a == b)%Q -> Qtrunc a = Qtrunc b.
Proof.
  destruct a as [p q], b as [r s]. unfold Qeq, Qtrunc. cbn [Qnum Qden]. intros H.
  rewrite <- (Z.quot_mul_cancel_r p (Zpos q) (Zpos s)) by discriminate.
  rewrite <- (Z.quot_mul_cancel_r r (Zpos s) (Zpos q)) by discriminate. rewrite H. f_equal. lia.
Qed.
Lemma fix_key_eq x c v : fix_key x c v = if v =? snd c then key_value x c else x v.
Proof.
  unfold fix_key, set_val, key_value. destruct (v =? snd c); [|reflexivity]. apply Qtrunc_comp. now rewrite fold_sum.
Qed.

Lemma fix_keys_spec : forall (cs : list gf2c) x, NoDup (map snd cs) ->
  (forall c c', In c cs -> In c' cs -> ~ In (snd c) (nonkey c')) ->
  let y := fold_left fix_key cs x in
  (forall v, ~ In v (map snd cs) -> y v = x v) /\ (forall c, In c cs -> y (snd c) = key_value x c).
Proof.
  induction cs as [|c cs IH]; intros x ND Dj; [cbn; split; [auto|intros c []]|]. cbn [fold_left map] in *.
  inversion ND as [|? ? N1 N2]; subst. cbv zeta.
  destruct (IH (fix_key x c) N2) as [I1 I2]; [intros a b Ha Hb; apply Dj; now right|].
  split.
  - intros v Hv. rewrite I1 by (intros H; apply Hv; now right). rewrite fix_key_eq.
    destruct (Nat.eqb_spec v (snd c)) as [E|]; [exfalso; apply Hv; now left|reflexivity].
  - intros d [<-|Hd].
    + rewrite I1 by assumption. rewrite fix_key_eq, Nat.eqb_refl. reflexivity.
    + rewrite I2 by assumption. unfold key_value. do 5 f_equal. apply zsum_ext. intros v Hv. rewrite fix_key_eq.
      destruct (Nat.eqb_spec v (snd c)) as [E|]; [|reflexivity]. exfalso. apply (Dj c d); [now left|now right|]. now rewrite <- E.
Qed.

Lemma nodup_full (l : list nat) : length (nodup Nat.eq_dec l) = length l -> NoDup l.
Proof.
  assert (Le : forall l, length (nodup Nat.eq_dec l) <= length l).
  { induction l0 as [|a l0 IH]; cbn; [lia|]. destruct (in_dec _ _ _); cbn; lia. }
  induction l as [|a l IH]; intros H; [constructor|]. cbn in H. destruct (in_dec Nat.eq_dec a l) as [I|N]; cbn in H.
  - specialize (Le l). lia.
  - constructor; [exact N|]. apply IH. lia.
Qed.

Lemma value_split (k : nat) x : forall s, NoDup (map fst s) -> (forall v q, In (v, q) s -> v <> k -> q == 1)%Q ->
  (fold_right (fun p a => snd p * inject_Z (x (fst p)) + a) 0 s ==
   coef s k * inject_Z (x k) + inject_Z (zsum (filter (fun v => negb (Nat.eqb v k)) (map fst s)) x))%Q.
Proof.
  induction s as [|[v q] s IH]; intros ND H1; [cbn; unfold coef; cbn; change (inject_Z 0) with 0%Q; lra|].
  cbn [map fst] in ND. inversion ND as [|? ? N1 N2]; subst. cbn [fold_right fst snd map filter].
  rewrite IH by (try assumption; intros w r Hw; apply H1; now right).
  unfold coef. cbn [sens_find]. destruct (Nat.eqb_spec v k) as [->|N]; cbn [negb].
  - assert (E : sens_find s k = None) by now apply find_none. rewrite E. lra.
  - cbn [zsum]. rewrite inject_Z_plus, (H1 v q (or_introl eq_refl) N). lra.
Qed.

Lemma gf2_correct cs bs x y :
  Permutation bs (binary_variables cs) -> Forall parity_equation cs ->
  (forall c c', In c cs -> In c' cs -> ~ In (snd c) (nonkey c')) ->
  gf2_solve cs bs x = Some y ->
  (forall c, In c cs -> value_at (fst c) y == 0)%Q /\
  (forall v, In v bs -> y v = 0%Z \/ y v = 1%Z) /\
  (forall v, ~ In v bs -> ~ In v (map snd cs) -> y v = x v).
Proof.
  intros PB PE Dj E. unfold gf2_solve in E.
  destruct (Nat.eqb_spec (length bs) (length cs)) as [L1|]; [|discriminate]. cbn [negb] in E.
  destruct (Nat.eqb_spec (length (key_variables cs)) (length cs)) as [L2|]; [|discriminate]. cbn [negb] in E.
  pose proof (inverse_correct (length cs) (gf2_matrix cs bs)) as INV.
  destruct (inverse_and_rank (length cs) (gf2_matrix cs bs)) as [inv rank]. cbn [fst snd] in INV.
  destruct (Nat.eqb_spec rank (length cs)) as [Er|]; [|discriminate]. cbn [negb] in E.
  destruct (INV Er) as [_ MI]. clear INV. injection E as <-.
  set (n := length cs) in *. set (sol := dotv n inv (gf2_constants cs)).
  assert (NDb : NoDup bs) by (eapply Permutation_NoDup; [apply Permutation_sym; exact PB|apply NoDup_nodup]).
  assert (NDk : NoDup (map snd cs)) by (apply nodup_full; rewrite map_length; exact L2).
  destruct (fix_binaries_spec bs sol x NDb) as [B1 B2].
  set (x1 := fix_binaries bs sol x) in *.
  destruct (fix_keys_spec cs x1 NDk Dj) as [K1 K2]. set (y := fold_left fix_key cs x1) in *.
  assert (Inb : forall c v, In c cs -> In v (nonkey c) -> In v bs).
  { intros c v Hc Hv. apply (Permutation_in v (Permutation_sym PB)). unfold binary_variables. apply nodup_In, in_flat_map. eauto. }
  assert (Nk : forall v, In v bs -> ~ In v (map snd cs)).
  { intros v Hv Hk. apply (Permutation_in v PB) in Hv. unfold binary_variables in Hv. apply nodup_In, in_flat_map in Hv.
    destruct Hv as (c' & Hc' & Hv). apply in_map_iff in Hk. destruct Hk as (c & <- & Hc). now apply (Dj c c'). }
  (* the parity system holds *)
  assert (Par : forall r c, nth_error cs r = Some c -> Z.odd (zsum (nonkey c) x1) = Z.odd (Qtrunc (ex_const (fst c)))).
  { intros r c Hr. assert (Hrn : r < n) by (apply nth_error_Some; congruence).
    assert (Hc : In c cs) by (eapply nth_error_In; eassumption).
    transitivity (xsum n (fun col => gf2_matrix cs bs r col && sol col)).
    - unfold gf2_matrix. rewrite Hr. rewrite <- L1.
      rewrite (xsum_ext (length bs) _ (fun i => match nth_error bs i with Some v => existsb (Nat.eqb v) (nonkey c) && Z.odd (x1 v) | None => false end)).
      + rewrite zsum_odd.
        transitivity (xl bs (fun v => existsb (Nat.eqb v) (nonkey c) && Z.odd (x1 v))).
        * rewrite xl_filter. apply xl_perm. apply NoDup_Permutation.
          -- unfold nonkey. apply NoDup_filter. rewrite Forall_forall in PE. apply (PE c Hc).
          -- now apply NoDup_filter.
          -- intros v. rewrite filter_In. split.
             ++ intros Hv. split; [now apply (Inb c)|]. apply existsb_exists. exists v. split; [exact Hv|apply Nat.eqb_refl].
             ++ intros [_ Hv]. apply existsb_exists in Hv. destruct Hv as (w & Hw & Ew). apply Nat.eqb_eq in Ew. now subst.
        * symmetry. apply (xsum_nth bs (fun v => existsb (Nat.eqb v) (nonkey c) && Z.odd (x1 v))).
      + intros i Hi. destruct (nth_error bs i) as [v|] eqn:Ev; [|reflexivity]. rewrite (B1 i v Ev). f_equal. now destruct (sol i).
    - unfold sol, dotv.
      rewrite (xsum_ext n _ (fun col => xsum n (fun k => gf2_matrix cs bs r col && inv col k && gf2_constants cs k))).
      + rewrite xsum_swap. rewrite (xsum_ext n _ (fun k => (r =? k) && gf2_constants cs k)).
        * rewrite xsum_delta by assumption. unfold gf2_constants. now rewrite Hr.
        * intros k Hk. rewrite xsum_and_r. f_equal. now apply MI.
      + intros col _. rewrite <- xsum_and_l. apply xsum_ext. intros; apply andb_assoc. }
  split; [|split].
  - intros c Hc. destruct (In_nth_error cs c Hc) as (r & Hr). specialize (Par r c Hr).
    rewrite Forall_forall in PE. destruct (PE c Hc) as (P1 & P2 & P3 & P4).
    unfold value_at. rewrite (value_split (snd c) y _ P1 P3). fold (nonkey c).
    rewrite (zsum_ext (nonkey c) y x1) by (intros v Hv; apply K1, Nk, (Inb c); assumption).
    rewrite (K2 c Hc). unfold key_value.
    assert (C0 : exists c0 : Z, (ex_const (fst c) == inject_Z c0)%Q /\ Qtrunc (ex_const (fst c)) = c0).
    { destruct P4 as [->|[->| ->]]; [exists 0%Z|exists 1%Z|exists (-1)%Z]; split; reflexivity. }
    destruct C0 as (c0 & E0 & T0). rewrite T0 in Par.
    assert (Ev : Z.odd (c0 + zsum (nonkey c) x1) = false) by (rewrite Z.odd_add, Par; now destruct (Z.odd c0)).
    assert (Hm : exists m, (c0 + zsum (nonkey c) x1 = 2 * m)%Z).
    { rewrite (Zdiv2_odd_eqn (c0 + zsum (nonkey c) x1)), Ev. eexists. rewrite Z.add_0_r. reflexivity. }
    destruct Hm as (m & Hm).
    assert (S2 : (inject_Z (zsum (nonkey c) x1) == 2 * inject_Z m - inject_Z c0)%Q).
    { replace (zsum (nonkey c) x1) with (2 * m - c0)%Z by lia. unfold Z.sub. rewrite inject_Z_plus, inject_Z_mult, inject_Z_opp. change (inject_Z 2) with 2%Q. lra. }
    assert (HV : (ex_const (fst c) + inject_Z (zsum (nonkey c) x1) == 2 * inject_Z m)%Q) by (rewrite S2, E0; lra).
    assert (HK : (coef (ex_sens (fst c)) (snd c) * inject_Z (Qtrunc (- (ex_const (fst c) + inject_Z (zsum (nonkey c) x1)) / coef (ex_sens (fst c)) (snd c))) == - (2 * inject_Z m))%Q).
    { destruct P2 as [P2|P2]; apply (in_find _ _ _ P1) in P2; unfold coef; rewrite P2.
      - rewrite (Qtrunc_Z _ (- m)); [rewrite inject_Z_opp; lra|]. rewrite HV, inject_Z_opp. field.
      - rewrite (Qtrunc_Z _ m); [lra|]. rewrite HV. field. }
    rewrite HK, S2, E0. lra.
  - intros v Hv. rewrite K1 by now apply Nk. destruct (In_nth_error bs v Hv) as (i & Hi). rewrite (B1 i v Hi). destruct (sol i); cbn; auto.
  - intros v Hb Hk. rewrite K1 by assumption. now apply B2.
Qed.
