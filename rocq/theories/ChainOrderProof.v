(** * The order of the chain moves is an order, and sorting brings duplicates together *)
From Coq Require Import List Bool ZArith QArith Qabs Permutation Lia Lqa.
From Verif Require Import MoveModel ChainOrderModel ChainOrderSpec.
Import ListNotations.
Open Scope Z_scope.

(** The keys by which nearly equal moves are compared. *)
Definition key (m : cmove) : list Z :=
  Z.of_nat (length (cm_alterations m)) :: Z.of_nat (cm_related m) :: map fst (cm_alterations m) ++ map snd (cm_alterations m).

Fixpoint lexgt (a b : list Z) : bool :=
  match a, b with
  | x :: a', y :: b' => if 0 <? x - y then true else if x - y <? 0 then false else lexgt a' b'
  | _, _ => false
  end.

Lemma lexgt_irrefl : forall a, lexgt a a = false.
Proof. induction a as [|x a IH]; cbn; [reflexivity|]. rewrite Z.sub_diag; cbn; exact IH. Qed.

Lemma lexgt_trans : forall a b c, lexgt a b = true -> lexgt b c = true -> lexgt a c = true.
Proof.
  induction a as [|x a IH]; intros [|y b] [|z c] H1 H2; cbn in *; try discriminate.
  destruct (Z.ltb_spec 0 (x - y)), (Z.ltb_spec (x - y) 0), (Z.ltb_spec 0 (y - z)), (Z.ltb_spec (y - z) 0),
    (Z.ltb_spec 0 (x - z)), (Z.ltb_spec (x - z) 0); try lia; try reflexivity; try discriminate; eapply IH; eassumption.
Qed.

Lemma lexgt_asym : forall a b, lexgt a b = true -> lexgt b a = false.
Proof.
  intros a b H; destruct (lexgt b a) eqn:E; [|reflexivity].
  pose proof (lexgt_trans _ _ _ H E) as X; rewrite lexgt_irrefl in X; discriminate.
Qed.

Lemma lexgt_eq : forall a b, length a = length b -> lexgt a b = false -> lexgt b a = false -> a = b.
Proof.
  induction a as [|x a IH]; intros [|y b] L H1 H2; cbn in *; try discriminate; [reflexivity|].
  destruct (Z.ltb_spec 0 (x - y)), (Z.ltb_spec (x - y) 0), (Z.ltb_spec 0 (y - x)), (Z.ltb_spec (y - x) 0); try lia; try discriminate.
  f_equal; [lia | apply IH; [lia | assumption | assumption]].
Qed.

Lemma to_int_small : forall z, - 2 ^ 31 < z < 2 ^ 31 -> to_int z = z.
Proof. intros z H; unfold to_int. rewrite Z.mod_small; lia. Qed.

Lemma lexgt_app : forall a b c d, length a = length b ->
  lexgt (a ++ c) (b ++ d) = if lexgt a b then true else if lexgt b a then false else lexgt c d.
Proof.
  induction a as [|x a IH]; intros [|y b] c d L; cbn in *; try discriminate; [reflexivity|].
  destruct (Z.ltb_spec 0 (x - y)), (Z.ltb_spec (x - y) 0), (Z.ltb_spec 0 (y - x)), (Z.ltb_spec (y - x) 0); try lia; try reflexivity.
  apply IH; lia.
Qed.

Lemma by_address_lex : forall base a b, length a = length b ->
  (forall x, In x a -> base <= fst x < base + 2 ^ 31) -> (forall x, In x b -> base <= fst x < base + 2 ^ 31) ->
  by_address a b = if lexgt (map fst a) (map fst b) then Some true else if lexgt (map fst b) (map fst a) then Some false else None.
Proof.
  intros base; induction a as [|x a IH]; intros [|y b] L Ha Hb; try discriminate; [reflexivity|].
  cbn [by_address map lexgt]. cbv zeta.
  rewrite to_int_small by (pose proof (Ha x (or_introl eq_refl)); pose proof (Hb y (or_introl eq_refl)); lia).
  destruct (Z.ltb_spec 0 (fst x - fst y)), (Z.ltb_spec (fst x - fst y) 0), (Z.ltb_spec 0 (fst y - fst x)), (Z.ltb_spec (fst y - fst x) 0); try lia; try reflexivity.
  apply IH; [cbn in L; lia | intros z Hz; apply Ha; right; exact Hz | intros z Hz; apply Hb; right; exact Hz].
Qed.

Lemma by_value_lex : forall a b, by_value a b = lexgt (map snd a) (map snd b).
Proof. induction a as [|x a IH]; intros [|y b]; cbn; try reflexivity. rewrite IH; reflexivity. Qed.

Definition far (a b : cmove) : Prop := (EPS10 < cm_overlap a - cm_overlap b)%Q.

Lemma near_iff : forall a b, near a b <-> ~ far a b /\ ~ far b a.
Proof.
  intros a b; unfold near, far. change (1 # 10000000000)%Q with EPS10. rewrite Qabs_Qle_condition.
  split; [intros (H1 & H2); split; lra | intros (H1 & H2); split; lra].
Qed.

Lemma near_sym : forall a b, near a b -> near b a.
Proof. intros a b H; apply near_iff in H; apply near_iff; tauto. Qed.

Lemma near_refl : forall a, near a a.
Proof. intro a; apply near_iff; unfold far, EPS10; split; lra. Qed.

Lemma before_far : forall a b, far a b -> before a b = true.
Proof. intros a b H; unfold before; cbv zeta. destruct (Qlt_le_dec EPS10 (cm_overlap a - cm_overlap b)) as [|X]; [reflexivity | unfold far in H; lra]. Qed.

Lemma before_not : forall a b, far b a -> before a b = false.
Proof.
  intros a b H; unfold before; cbv zeta; unfold far in H.
  destruct (Qlt_le_dec EPS10 _) as [X|X]; [unfold EPS10 in *; lra|].
  destruct (Qlt_le_dec _ (- EPS10)) as [Y|Y]; [reflexivity | lra].
Qed.

Section Moves.
Variable l : list cmove.
Hypothesis (C : compact l).

Lemma before_near : forall a b, In a l -> In b l -> near a b -> before a b = lexgt (key a) (key b).
Proof.
  intros a b Ia Ib N; apply near_iff in N; destruct N as (N1 & N2); unfold far in N1, N2; unfold before; cbv zeta.
  destruct (Qlt_le_dec EPS10 _) as [X|X]; [contradiction|].
  destruct (Qlt_le_dec _ (- EPS10)) as [Y|Y]; [exfalso; lra|].
  rewrite Z.gtb_ltb, Z.ltb_irrefl. unfold key; cbn [lexgt].
  destruct (Z.ltb_spec 0 (Z.of_nat (length (cm_alterations a)) - Z.of_nat (length (cm_alterations b)))); [reflexivity|].
  destruct (Z.ltb_spec (Z.of_nat (length (cm_alterations a)) - Z.of_nat (length (cm_alterations b))) 0); [reflexivity|].
  destruct (0 <? _); [reflexivity|]. destruct (_ <? 0); [reflexivity|].
  destruct C as (base & B). assert (L : length (cm_alterations a) = length (cm_alterations b)) by lia.
  rewrite (by_address_lex base _ _ L (fun x Hx => B a x Ia Hx) (fun x Hx => B b x Ib Hx)).
  rewrite lexgt_app by (rewrite !map_length; exact L). rewrite by_value_lex.
  destruct (lexgt (map fst (cm_alterations a)) _); [reflexivity|]. destruct (lexgt _ (map fst (cm_alterations a))); reflexivity.
Qed.

Lemma key_length : forall a b, nth 0 (key a) 0 = nth 0 (key b) 0 -> length (key a) = length (key b).
Proof. intros a b H; unfold key in *; cbn in *; rewrite !app_length, !map_length; lia. Qed.

Lemma key_inj : forall a b, key a = key b -> cm_alterations a = cm_alterations b /\ cm_related a = cm_related b.
Proof.
  intros a b H; unfold key in H. injection H as H1 H2 H3. split; [|lia].
  assert (L : length (cm_alterations a) = length (cm_alterations b)) by lia. clear H1 H2.
  assert (X : map fst (cm_alterations a) = map fst (cm_alterations b) /\ map snd (cm_alterations a) = map snd (cm_alterations b)).
  { assert (E : firstn (length (cm_alterations a)) (map fst (cm_alterations a) ++ map snd (cm_alterations a)) = map fst (cm_alterations a)).
    { rewrite <- (map_length fst (cm_alterations a)), firstn_app, Nat.sub_diag, firstn_all, firstn_O, app_nil_r; reflexivity. }
    assert (E' : firstn (length (cm_alterations a)) (map fst (cm_alterations b) ++ map snd (cm_alterations b)) = map fst (cm_alterations b)).
    { rewrite L, <- (map_length fst (cm_alterations b)), firstn_app, Nat.sub_diag, firstn_all, firstn_O, app_nil_r; reflexivity. }
    assert (F : map fst (cm_alterations a) = map fst (cm_alterations b)) by (rewrite <- E, <- E', H3; reflexivity).
    split; [exact F|]. rewrite F in H3; apply app_inv_head in H3; exact H3. }
  destruct X as (X1 & X2). clear H3. revert X1 X2 L; generalize (cm_alterations b) as v; induction (cm_alterations a) as [|(p, q) u IH]; intros [|(r, s) v] X1 X2 L; cbn in *; try discriminate; [reflexivity|].
  injection X1 as -> X1; injection X2 as -> X2; f_equal; apply IH; [exact X1 | exact X2 | lia].
Qed.

Lemma incomparable : forall a b, In a l -> In b l ->
  (before a b = false /\ before b a = false) <-> duplicate a b.
Proof.
  intros a b Ia Ib; split.
  - intros (H1 & H2).
    assert (N : near a b) by (apply near_iff; split; intro F; rewrite (before_far _ _ F) in *; discriminate).
    rewrite (before_near a b Ia Ib N) in H1; rewrite (before_near b a Ib Ia (near_sym _ _ N)) in H2.
    assert (K : key a = key b).
    { apply lexgt_eq; [|exact H1 | exact H2]. apply key_length. unfold key in *; cbn in *.
      destruct (Z.ltb_spec 0 (Z.of_nat (length (cm_alterations a)) - Z.of_nat (length (cm_alterations b)))); [discriminate|].
      destruct (Z.ltb_spec 0 (Z.of_nat (length (cm_alterations b)) - Z.of_nat (length (cm_alterations a)))); [discriminate | lia]. }
    destruct (key_inj a b K); split; [assumption|]; split; assumption.
  - intros (A & R & N).
    assert (K : key a = key b) by (unfold key; rewrite A, R; reflexivity).
    rewrite (before_near a b Ia Ib N), (before_near b a Ib Ia (near_sym _ _ N)), K; split; apply lexgt_irrefl.
Qed.

Hypothesis (G : grouped l).

Lemma far_near : forall a b c, In a l -> In b l -> In c l -> far a b -> near b c -> far a c.
Proof.
  intros a b c Ia Ib Ic F N. destruct (Qlt_le_dec EPS10 (cm_overlap a - cm_overlap c)) as [X|X]; [exact X|]. exfalso.
  assert (M : near a c).
  { apply near_iff; split; [unfold far; lra|]. apply near_iff in N; destruct N as (N1 & N2); unfold far in *; unfold EPS10 in *; lra. }
  pose proof (G a c b Ia Ic Ib M (near_sym _ _ N)) as Z; apply near_iff in Z; tauto.
Qed.

Lemma near_far : forall a b c, In a l -> In b l -> In c l -> near a b -> far b c -> far a c.
Proof.
  intros a b c Ia Ib Ic N F. destruct (Qlt_le_dec EPS10 (cm_overlap a - cm_overlap c)) as [X|X]; [exact X|]. exfalso.
  assert (M : near a c).
  { apply near_iff; split; [unfold far; lra|]. apply near_iff in N; destruct N as (N1 & N2); unfold far in *; unfold EPS10 in *; lra. }
  pose proof (G b a c Ib Ia Ic (near_sym _ _ N) M) as Z; apply near_iff in Z; tauto.
Qed.

Lemma before_cases : forall a b, In a l -> In b l -> before a b = true -> far a b \/ (near a b /\ lexgt (key a) (key b) = true).
Proof.
  intros a b Ia Ib H. destruct (Qlt_le_dec EPS10 (cm_overlap a - cm_overlap b)) as [X|X]; [left; exact X|]. right.
  assert (N : near a b).
  { apply near_iff; split; [unfold far; lra|]. intro F; rewrite (before_not _ _ F) in H; discriminate. }
  split; [exact N|]; rewrite <- (before_near a b Ia Ib N); exact H.
Qed.

Lemma before_trans : forall a b c, In a l -> In b l -> In c l -> before a b = true -> before b c = true -> before a c = true.
Proof.
  intros a b c Ia Ib Ic H1 H2.
  destruct (before_cases a b Ia Ib H1) as [F1|(N1 & L1)], (before_cases b c Ib Ic H2) as [F2|(N2 & L2)].
  - apply before_far; unfold far in *; unfold EPS10 in *; lra.
  - apply before_far; apply (far_near a b c); assumption.
  - apply before_far; apply (near_far a b c); assumption.
  - rewrite (before_near a c Ia Ic (G a b c Ia Ib Ic N1 N2)); eapply lexgt_trans; eassumption.
Qed.

Lemma before_order : strict_weak_order l before.
Proof.
  split; [|split].
  - intros a Ia; rewrite (before_near a a Ia Ia (near_refl a)); apply lexgt_irrefl.
  - exact before_trans.
  - intros a b c Ia Ib Ic H1 H2 H3 H4.
    destruct (proj1 (incomparable a b Ia Ib) (conj H1 H2)) as (A1 & R1 & N1).
    destruct (proj1 (incomparable b c Ib Ic) (conj H3 H4)) as (A2 & R2 & N2).
    apply (incomparable a c Ia Ic); split; [congruence|]; split; [congruence | exact (G a b c Ia Ib Ic N1 N2)].
Qed.

(** operator== tells duplicates. *)
Lemma equal_alterations_spec : forall u v, length u = length v -> (equal_alterations u v = true <-> u = v).
Proof.
  induction u as [|(p, q) u IH]; intros [|(r, s) v] L; try discriminate; cbn [equal_alterations fst snd]; [tauto|].
  cbn in L. destruct (Z.eqb_spec p r), (Z.eqb_spec q s); cbn [andb]; subst.
  - rewrite IH by lia; split; [intros ->; reflexivity | intro X; injection X; tauto].
  - split; [discriminate | intro X; injection X; congruence].
  - split; [discriminate | intro X; injection X; congruence].
  - split; [discriminate | intro X; injection X; congruence].
Qed.

Lemma same_move_spec : forall a b, same_move a b = true <-> duplicate a b.
Proof.
  intros a b; unfold same_move, duplicate.
  destruct (Nat.eqb_spec (length (cm_alterations a)) (length (cm_alterations b))) as [L|L]; cbn [negb];
    [|split; [discriminate | intros (A & _); rewrite A in L; congruence]].
  destruct (Nat.eqb_spec (cm_related a) (cm_related b)) as [R|R]; cbn [negb];
    [|split; [discriminate | intros (_ & X & _); congruence]].
  destruct (Z.eqb_spec (cm_hash a) (cm_hash b)) as [H|H]; cbn [negb];
    [|split; [discriminate | intros (A & _); unfold cm_hash in H; rewrite A in H; congruence]].
  unfold near. change (1 # 10000000000)%Q with EPS10.
  destruct (Qlt_le_dec EPS10 _) as [X|X]; [split; [discriminate | intros (_ & _ & Y); exfalso; lra]|].
  rewrite (equal_alterations_spec _ _ L); tauto.
Qed.

(** A sorted list and std::unique. *)

Lemma unique_spec : forall v x,
  In x l -> (forall y, In y v -> In y l) -> ForallOrdPairs (fun a b => before b a = false) (x :: v) ->
  Forall (fun y => before x y = true) (unique_from same_move x v) /\
  ForallOrdPairs (fun a b => before a b = true) (unique_from same_move x v) /\
  (forall y, In y (unique_from same_move x v) -> In y v) /\
  (forall y, In y v -> duplicate x y \/ exists z, In z (unique_from same_move x v) /\ duplicate z y).
Proof.
  induction v as [|b v IH]; intros x Ix Iv S; cbn [unique_from].
  - split; [apply Forall_nil|]; split; [apply FOP_nil|]; split; [intros y [] | intros y []].
  - inversion S as [|? ? Sx Sv]; subst. inversion Sx as [|? ? Sb Sx']; subst.
    assert (Ib : In b l) by (apply Iv; left; reflexivity).
    destruct (same_move x b) eqn:E.
    + apply same_move_spec in E. inversion Sv as [|? ? Sv1 Sv2]; subst.
      destruct (IH x Ix (fun y Hy => Iv y (or_intror Hy)) ltac:(apply FOP_cons; assumption)) as (H1 & H2 & H3 & H4).
      split; [exact H1|]; split; [exact H2|]; split; [intros y Hy; right; exact (H3 y Hy)|].
      intros y [<-|Hy]; [left; exact E | exact (H4 y Hy)].
    + assert (B : before x b = true).
      { destruct (before x b) eqn:B; [reflexivity|].
        assert (D : duplicate x b) by (apply (incomparable x b Ix Ib); split; assumption).
        apply same_move_spec in D; congruence. }
      destruct (IH b Ib (fun y Hy => Iv y (or_intror Hy)) Sv) as (H1 & H2 & H3 & H4).
      split; [|split; [|split]].
      * apply Forall_cons; [exact B|]. rewrite Forall_forall in *; intros y Hy.
        apply (before_trans x b y); [exact Ix | exact Ib | apply Iv; right; exact (H3 y Hy) | exact B | exact (H1 y Hy)].
      * apply FOP_cons; assumption.
      * intros y [<-|Hy]; [left; reflexivity | right; exact (H3 y Hy)].
      * intros y [<-|Hy].
        -- right; exists b; split; [left; reflexivity|]. split; [reflexivity|]; split; [reflexivity | apply near_refl].
        -- right; destruct (H4 y Hy) as [D|(z & Hz & D)]; [exists b; split; [left; reflexivity | exact D] | exists z; split; [right; exact Hz | exact D]].
Qed.

Lemma sorted_pairs : forall v, (forall front a mid b back, v = front ++ a :: mid ++ b :: back -> before b a = false) ->
  ForallOrdPairs (fun a b => before b a = false) v.
Proof.
  induction v as [|x v IH]; intro H; [apply FOP_nil|]. apply FOP_cons.
  - rewrite Forall_forall; intros y Hy. apply in_split in Hy; destruct Hy as (mid & back & ->). apply (H [] x mid y back); reflexivity.
  - apply IH; intros front a mid b back E; apply (H (x :: front) a mid b back); rewrite E; reflexivity.
Qed.

Lemma pairs_sorted : forall (P : cmove -> cmove -> Prop) v, ForallOrdPairs P v ->
  forall front a mid b back, v = front ++ a :: mid ++ b :: back -> P a b.
Proof.
  intros P v H; induction H as [|x v Hx Hv IH]; intros front a mid b back E; [destruct front; discriminate|].
  destruct front as [|y front]; cbn in E; injection E as E1 E2; subst.
  - rewrite Forall_forall in Hx; apply Hx; apply in_app_iff; right; left; reflexivity.
  - eapply IH; reflexivity.
Qed.

Theorem dedup_all : forall l', sorted_by before l l' ->
  (forall m, In m (deduplicate l') -> In m l) /\
  (forall m, In m l -> exists m', In m' (deduplicate l') /\ duplicate m' m) /\
  (forall front a mid b back, deduplicate l' = front ++ a :: mid ++ b :: back ->
     ~ duplicate a b /\ (cm_overlap b <= cm_overlap a + (1 # 10000000000))%Q).
Proof.
  intros l' (P & S). apply sorted_pairs in S.
  assert (In1 : forall y, In y l' -> In y l) by (intros y Hy; eapply Permutation_in; [apply Permutation_sym; exact P | exact Hy]).
  destruct l' as [|x v].
  - split; [intros m []|]; split; [intros m Hm; apply (Permutation_in _ P) in Hm; destruct Hm|].
    intros front a mid b back E; destruct front; discriminate.
  - unfold deduplicate, unique.
    assert (Ix : In x l) by (apply In1; left; reflexivity).
    destruct (unique_spec v x Ix (fun y Hy => In1 y (or_intror Hy)) S) as (H1 & H2 & H3 & H4).
    assert (I3 : forall m, In m (x :: unique_from same_move x v) -> In m l).
    { intros m [<-|Hm]; [exact Ix | apply In1; right; exact (H3 m Hm)]. }
    split; [exact I3|]; split.
    + intros m Hm; apply (Permutation_in _ P) in Hm; destruct Hm as [<-|Hm].
      * exists x; split; [left; reflexivity|]; split; [reflexivity|]; split; [reflexivity | apply near_refl].
      * destruct (H4 m Hm) as [D|(z & Hz & D)]; [exists x; split; [left; reflexivity | exact D] | exists z; split; [right; exact Hz | exact D]].
    + intros front a mid b back E.
      assert (B : before a b = true) by (exact (pairs_sorted (fun p q => before p q = true) (x :: unique_from same_move x v) ltac:(apply FOP_cons; assumption) front a mid b back E)).
      assert (Ia : In a l) by (apply I3; rewrite E; apply in_app_iff; right; left; reflexivity).
      assert (Ib : In b l) by (apply I3; rewrite E; apply in_app_iff; right; right; apply in_app_iff; right; left; reflexivity).
      split.
      * intro D; apply (incomparable a b Ia Ib) in D; destruct D; congruence.
      * assert (F : ~ far b a) by (intro F; rewrite (before_not a b F) in B; discriminate). unfold far, EPS10 in F; lra.
Qed.
End Moves.

(** The capacity keeps the front of the list. *)
Lemma reduce_spec : forall n l, (length (reduce n l) <= n)%nat /\ exists rest, l = reduce n l ++ rest /\ (rest <> [] -> length (reduce n l) = n).
Proof.
  intros n l; unfold reduce; destruct (Nat.leb_spec (length l) n).
  - split; [lia|]; exists []; split; [rewrite app_nil_r; reflexivity | congruence].
  - split; [rewrite firstn_length; lia|]; exists (skipn n l); split; [symmetry; apply firstn_skipn | intros _; rewrite firstn_length; lia].
Qed.
