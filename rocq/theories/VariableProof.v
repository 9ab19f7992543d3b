(** Proofs for C09 and C10. *)
From Coq Require Import List ZArith Bool Lia.
From Verif Require Import VariableModel VariableSpec.
Import ListNotations.
Local Open Scope Z_scope.

Lemma margin_truthful v : margins_truthful (v_margin v).
Proof. split; cbn; rewrite Z.ltb_lt; reflexivity. Qed.

Lemma boi_spec lo hi : lo <= hi -> (binary_or_integer lo hi = VBinary <-> zero_one lo hi) /\ (binary_or_integer lo hi = VBinary \/ binary_or_integer lo hi = VInteger).
Proof.
  intros H. unfold binary_or_integer, zero_one.
  destruct (Z.eqb_spec lo 0), (Z.eqb_spec hi 1), (Z.eqb_spec hi 0), (Z.eqb_spec lo 1); cbn; split; auto; split; intros; try lia; try discriminate; auto.
Qed.

Definition sense_ok (v : var) : Prop :=
  va_lower v <= va_upper v /\
  (va_sense v = VBinary \/ va_sense v = VDependentBinary -> zero_one (va_lower v) (va_upper v)) /\
  (va_sense v = VInteger \/ va_sense v = VDependentInteger -> ~ zero_one (va_lower v) (va_upper v)).

Lemma sense_step v o v' : sense_ok v -> v_step v o = Some v' -> sense_ok v'.
Proof.
  intros (H1 & H2 & H3) E.
  assert (Fresh : forall lo hi, lo <= hi -> 
    (binary_or_integer lo hi = VBinary \/ binary_or_integer lo hi = VDependentBinary -> zero_one lo hi) /\
    (binary_or_integer lo hi = VInteger \/ binary_or_integer lo hi = VDependentInteger -> ~ zero_one lo hi)).
  { intros lo hi Hl. destruct (boi_spec lo hi Hl) as [B1 B2]. split; intros [K|K].
    - now apply B1.
    - destruct B2; congruence.
    - intros Z. apply B1 in Z. congruence.
    - destruct B2; congruence. }
  destruct o as [a|a|a|lo hi| | | |a| | | | |a]; cbn [v_step] in E; try (injection E as <-; split; [exact H1|split; assumption]).
  - injection E as <-. destruct (va_fixed v); split; [exact H1|split; assumption|exact H1|split; assumption].
  - destruct (negb _ && _); [discriminate|]. injection E as <-. split; [exact H1|split; assumption].
  - destruct (Z.ltb_spec hi lo) as [L|L]; [discriminate|]. injection E as <-. split; [exact L|]. cbn. now apply Fresh.
  - injection E as <-. unfold sense_ok. cbn [v_margin va_lower va_upper va_sense]. split; [discriminate|].
    split; intros [K|K]; try discriminate. intros [Z _]. apply Z. reflexivity.
  - injection E as <-. cbn. split; [exact H1|]. cbn. split; intros [K|K]; discriminate.
  - injection E as <-. split; [exact H1|]. cbn. now apply Fresh.
  - injection E as <-. split; [exact H1|]. cbn. destruct (boi_spec _ _ H1) as [B1 B2].
    destruct (binary_or_integer (va_lower v) (va_upper v)) eqn:Eb; try (destruct B2; discriminate).
    + split; intros [K|K]; try discriminate. now apply B1.
    + split; intros [K|K]; try discriminate. intros Z. apply B1 in Z. discriminate.
  - injection E as <-. split; [exact H1|]. cbn. now apply Fresh.
Qed.

Lemma sense_run os : forall v, sense_ok v -> sense_ok (v_run v os).
Proof.
  unfold v_run. induction os as [|o os IH]; intros v H; [exact H|]. cbn [fold_left]. apply IH.
  destruct (v_step v o) as [v'|] eqn:E; [eapply sense_step; eassumption|exact H].
Qed.

Lemma margins_step v o v' : margins_truthful v -> ~ is_update o -> v_step v o = Some v' -> margins_truthful v'.
Proof.
  intros H N E. destruct o as [a|a|a|lo hi| | | |a| | | | |a]; cbn [v_step] in E.
  - injection E as <-. apply margin_truthful.
  - injection E as <-. destruct (va_fixed v); [exact H|apply margin_truthful].
  - destruct (negb _ && _); [discriminate|]. injection E as <-. apply margin_truthful.
  - destruct (Z.ltb hi lo); [discriminate|]. injection E as <-. apply margin_truthful.
  - injection E as <-. apply margin_truthful.
  - injection E as <-. exact H.
  - injection E as <-. exact H.
  - injection E as <-. apply margin_truthful.
  - injection E as <-. exact H.
  - injection E as <-. exact H.
  - injection E as <-. exact H.
  - injection E as <-. exact H.
  - exfalso. apply N. exact I.
Qed.
Lemma margins_run os : Forall (fun o => ~ is_update o) os -> forall v, margins_truthful v -> margins_truthful (v_run v os).
Proof.
  unfold v_run. induction os as [|o os IH]; intros F v H; [exact H|]. inversion F; subst. cbn [fold_left]. apply IH; [assumption|].
  destruct (v_step v o) as [v'|] eqn:E; [eapply margins_step; eassumption|exact H].
Qed.

Lemma variable_history os : let v := v_run v_init os in
  va_lower v <= va_upper v /\
  (Forall (fun o => ~ is_update o) os -> margins_truthful v) /\
  (va_sense v = VBinary \/ va_sense v = VDependentBinary -> zero_one (va_lower v) (va_upper v)) /\
  (va_sense v = VInteger \/ va_sense v = VDependentInteger -> ~ zero_one (va_lower v) (va_upper v)).
Proof.
  cbv zeta.
  assert (S0 : sense_ok v_init).
  { unfold sense_ok. cbn [v_init va_lower va_upper va_sense]. split; [discriminate|].
    split; intros [K|K]; try discriminate. intros [Z _]. apply Z. reflexivity. }
  destruct (sense_run os v_init S0) as (H1 & H2 & H3). split; [exact H1|]. split; [|split; assumption].
  intros F. apply margins_run; [exact F|]. split; split; reflexivity.
Qed.

Lemma fixed_protected v o : va_fixed v = true -> ~ forces o ->
  match v_step v o with
  | Some v' => va_value v' = va_value v
  | None => exists a, o = VSet a /\ a <> va_value v
            \/ exists lo hi, o = VSetBound lo hi /\ hi < lo
  end.
Proof.
  intros F N. destruct o as [a|a|a|lo hi| | | |a| | | | |a]; cbn [v_step]; try reflexivity; try (exfalso; apply N; exact I).
  - rewrite F. reflexivity.
  - rewrite F. destruct (Z.eqb_spec (va_value v) a) as [E|E]; cbn; [now symmetry|]. exists a. left. split; [reflexivity|auto].
Qed.
Lemma set_fixed_throws v a : va_fixed v = true -> a <> va_value v -> v_step v (VSet a) = None.
Proof. intros F N. cbn. rewrite F. destruct (Z.eqb_spec (va_value v) a); [congruence|reflexivity]. Qed.
Lemma set_bound_effect v lo hi : 
  (hi < lo -> v_step v (VSetBound lo hi) = None) /\
  (lo <= hi -> exists v', v_step v (VSetBound lo hi) = Some v' /\ va_lower v' = lo /\ va_upper v' = hi /\
    lo <= va_value v' <= hi /\ (lo <= va_value v <= hi -> va_value v' = va_value v) /\ va_fixed v' = va_fixed v).
Proof.
  split; intros H; cbn [v_step]; destruct (Z.ltb_spec hi lo); try lia; [reflexivity|].
  eexists. split; [reflexivity|]. cbn. repeat split; lia.
Qed.

(** ** Index arithmetic *)
Fixpoint prod (l : list Z) : Z := match l with [] => 1 | a :: tl => a * prod tl end.
Fixpoint suffix (l : list Z) : list Z := match l with [] => [] | a :: tl => prod tl :: suffix tl end.

Lemma pp_snoc l b : forall acc, partial_products acc (l ++ [b]) = partial_products acc l ++ [acc * prod (l ++ [b])].
Proof.
  induction l as [|a l IH]; intros acc; cbn [app partial_products prod].
  - f_equal. lia.
  - rewrite IH. cbn [app]. do 3 f_equal. lia.
Qed.
Lemma prod_app a b : prod (a ++ b) = prod a * prod b.
Proof. induction a as [|x a IH]; cbn [app prod]; [lia|]. rewrite IH. lia. Qed.
Lemma prod_rev l : prod (rev l) = prod l.
Proof. induction l as [|x l IH]; cbn [rev prod]; [reflexivity|]. rewrite prod_app, IH. cbn. lia. Qed.

Lemma strides_suffix shape : shape <> [] -> strides shape = suffix shape.
Proof.
  intros H. unfold strides. destruct shape as [|a s]; [congruence|]. clear H. cbn [rev]. rewrite removelast_last.
  revert a. induction s as [|b s IH]; intros a; [reflexivity|].
  cbn [rev]. rewrite pp_snoc. cbn [rev]. rewrite rev_app_distr. cbn [rev app suffix]. f_equal.
  - rewrite prod_app, prod_rev. cbn [prod]. ring.
  - specialize (IH a). cbn [suffix rev] in IH.
    (* drop the head *)
    assert (E : rev (partial_products 1 (rev s)) ++ [1] = suffix (b :: s)).
    { specialize (IH). cbn [suffix]. exact IH. }
    exact E.
Qed.

Lemma inner_suffix shape : forall idx acc, length idx = length shape ->
  exists f, inner_product idx (suffix shape) acc = Some (acc + f) /\
  (Forall2 (fun n i => 0 <= i < n) shape idx -> 0 <= f < prod shape) /\
  (Forall2 (fun n i => 0 <= i < n) shape idx -> unflatten (suffix shape) f = idx).
Proof.
  induction shape as [|n shape IH]; intros [|i idx] acc L; try discriminate.
  - exists 0. split; [cbn; f_equal; lia|]. split; [cbn; lia|reflexivity].
  - cbn [length] in L. injection L as L. cbn [suffix inner_product].
    destruct (IH idx (acc + i * prod shape) L) as (f & E & Hb & Hu).
    exists (i * prod shape + f). split; [rewrite E; f_equal; lia|]. split.
    + intros F. inversion F as [|? ? ? ? Hi F']; subst. specialize (Hb F'). cbn [prod]. nia.
    + intros F. inversion F as [|? ? ? ? Hi F']; subst. specialize (Hb F'). cbn [unflatten].
      assert (P : 0 < prod shape) by lia.
      rewrite Z.quot_div_nonneg, Z.rem_mod_nonneg by nia.
      rewrite Z.div_add_l, Z.div_small by lia. rewrite (Z.add_comm (i * prod shape) f), Z_mod_plus_full, Z.mod_small by lia.
      f_equal; [lia|]. now apply Hu.
Qed.

Lemma unflatten_range shape : Forall (fun n => 0 < n) shape -> forall f, 0 <= f < prod shape ->
  Forall2 (fun n i => 0 <= i < n) shape (unflatten (suffix shape) f) /\ forall acc, inner_product (unflatten (suffix shape) f) (suffix shape) acc = Some (acc + f).
Proof.
  induction shape as [|n shape IH]; intros P f Hf; cbn [suffix unflatten prod inner_product] in *.
  - split; [constructor|]. intros acc. f_equal. lia.
  - inversion P as [|? ? Hn P']; subst.
    assert (Hp : 0 < prod shape). { clear - P'. induction P'; cbn; [lia|nia]. }
    rewrite Z.quot_div_nonneg, Z.rem_mod_nonneg by lia.
    pose proof (Z.mod_pos_bound f (prod shape) Hp) as Hm.
    destruct (IH P' (f mod prod shape) Hm) as [R1 R2]. split.
    + constructor; [|exact R1]. split; [apply Z.div_pos; lia|]. apply Z.div_lt_upper_bound; lia.
    + intros acc. rewrite R2. f_equal. pose proof (Z.div_mod f (prod shape)). lia.
Qed.

Lemma elements_prod shape : number_of_elements shape = prod shape.
Proof.
  unfold number_of_elements. assert (H : forall l a, fold_left Z.mul l a = a * prod l).
  { induction l as [|b l IH]; intros a; cbn [fold_left prod]; [lia|]. rewrite IH. lia. }
  rewrite H. lia.
Qed.

Lemma index_bijection shape : shape <> [] -> Forall (fun n => 0 < n) shape ->
  (forall idx, in_range shape idx -> exists f, flat_index shape idx = Some f /\ 0 <= f < number_of_elements shape /\ multi_index shape f = idx) /\
  (forall f, 0 <= f < number_of_elements shape -> in_range shape (multi_index shape f) /\ flat_index shape (multi_index shape f) = Some f).
Proof.
  intros N P. unfold flat_index, multi_index, in_range. rewrite (strides_suffix shape N), elements_prod. split.
  - intros idx R. assert (L : length idx = length shape) by (clear - R; induction R; cbn; congruence).
    destruct (inner_suffix shape idx 0 L) as (f & E & Hb & Hu). exists f. rewrite E.
    split; [f_equal; lia|]. split; [now apply Hb|now apply Hu].
  - intros f Hf. destruct (unflatten_range shape P f Hf) as [R1 R2]. split; [exact R1|]. rewrite R2. f_equal.
Qed.
Lemma distinct_indices shape i j : shape <> [] -> Forall (fun n => 0 < n) shape -> in_range shape i -> in_range shape j ->
  flat_index shape i = flat_index shape j -> i = j.
Proof.
  intros N P Hi Hj E. destruct (index_bijection shape N P) as [H _].
  destruct (H i Hi) as (f & E1 & _ & U1). destruct (H j Hj) as (g & E2 & _ & U2). congruence.
Qed.
