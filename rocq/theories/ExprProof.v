From Coq Require Import List ZArith NArith QArith Bool Lia Lqa Permutation.
From Verif Require Import HashMapModel HashMapSpec HashMapProof ExprModel ExprSpec.
Import ListNotations.
Local Open Scope Q_scope.

(** Right-associated value of a coefficient list. *)
Fixpoint lin (s : sens) (x : nat -> Z) : Q :=
  match s with [] => 0 | (v, c) :: tl => c * inject_Z (x v) + lin tl x end.

Lemma eval_fold s x : forall a,
  fold_left (fun acc p => acc + inject_Z (x (fst p)) * snd p) s a == a + lin s x.
Proof.
  induction s as [|[v c] tl IH]; intros a; cbn [fold_left lin fst snd]; [lra|].
  rewrite IH. lra.
Qed.

Lemma eval_lin e x : e_eval e x == ex_const e + lin (ex_sens e) x.
Proof. apply eval_fold. Qed.

Lemma lin_add s v c x : lin (sens_add s v c) x == lin s x + c * inject_Z (x v).
Proof.
  induction s as [|[w d] tl IH]; cbn [sens_add lin]; [lra|].
  destruct (Nat.eqb_spec w v) as [->|]; cbn [lin]; [lra|]. rewrite IH. lra.
Qed.

Lemma lin_fold_add t x : forall s,
  lin (fold_left (fun s p => sens_add s (fst p) (snd p)) t s) x == lin s x + lin t x.
Proof.
  induction t as [|[v c] tl IH]; intros s; cbn [fold_left lin fst snd]; [lra|].
  rewrite IH, lin_add. lra.
Qed.

Lemma lin_map f s x k : (forall c, f c == c * k) -> lin (sens_map f s) x == lin s x * k.
Proof.
  intros H. induction s as [|[v c] tl IH]; cbn [sens_map map lin fst snd]; [lra|].
  fold (sens_map f tl). rewrite IH, H. lra.
Qed.

Lemma in_sens_add s v c w : In w (map fst (sens_add s v c)) <-> w = v \/ In w (map fst s).
Proof.
  induction s as [|[u d] tl IH]; cbn [sens_add map fst].
  - cbn. intuition.
  - destruct (Nat.eqb_spec u v) as [->|N]; cbn [map fst In].
    + intuition.
    + rewrite IH. intuition.
Qed.

Lemma nodup_sens_add s v c : NoDup (map fst s) -> NoDup (map fst (sens_add s v c)).
Proof.
  induction s as [|[u d] tl IH]; intros H; cbn [sens_add map fst] in *.
  - repeat constructor. intros [].
  - inversion H as [|? ? Hni Hnd]; subst. destruct (Nat.eqb_spec u v) as [->|N]; cbn [map fst].
    + constructor; auto.
    + constructor; auto. rewrite in_sens_add. intuition.
Qed.

Lemma nodup_fold_add t : forall s, NoDup (map fst s) ->
  NoDup (map fst (fold_left (fun s p => sens_add s (fst p) (snd p)) t s)).
Proof.
  induction t as [|[v c] tl IH]; intros s H; cbn [fold_left fst snd]; [exact H|].
  apply IH, nodup_sens_add, H.
Qed.

Lemma keys_map f s : map fst (sens_map f s) = map fst s.
Proof. unfold sens_map. rewrite map_map. reflexivity. Qed.

(** * C01 *)
Lemma eval_neg e x : e_eval (e_neg e) x == - e_eval e x.
Proof. rewrite !eval_lin. cbn. rewrite (lin_map _ _ _ (-1)) by (intros; lra). lra. Qed.
Lemma eval_add e f x : e_eval (e_add e f) x == e_eval e x + e_eval f x.
Proof. rewrite !eval_lin. cbn [e_add ex_sens ex_const]. rewrite lin_fold_add. lra. Qed.
Lemma eval_sub e f x : e_eval (e_sub e f) x == e_eval e x - e_eval f x.
Proof. unfold e_sub. rewrite eval_add, eval_neg. lra. Qed.
Lemma eval_mul e a x : e_eval (e_mul e a) x == e_eval e x * a.
Proof. rewrite !eval_lin. cbn. rewrite (lin_map _ _ _ a) by (intros; lra). lra. Qed.
Lemma eval_add_value e a x : e_eval (e_add_value e a) x == e_eval e x + a.
Proof. rewrite !eval_lin. cbn. lra. Qed.
Lemma eval_sub_value e a x : e_eval (e_sub_value e a) x == e_eval e x - a.
Proof. rewrite !eval_lin. cbn. lra. Qed.
Lemma eval_value_sub e a x : e_eval (e_value_sub a e) x == a - e_eval e x.
Proof. unfold e_value_sub. rewrite eval_add_value, eval_neg. lra. Qed.
Lemma eval_var v x : e_eval (e_var v) x == inject_Z (x v).
Proof. rewrite eval_lin. cbn. lra. Qed.

Lemma wf_neg e : wf e -> wf (e_neg e).
Proof. unfold wf, keys. cbn. now rewrite keys_map. Qed.
Lemma wf_add e f : wf e -> wf (e_add e f).
Proof. unfold wf, keys. cbn. apply nodup_fold_add. Qed.
Lemma wf_sub e f : wf e -> wf (e_sub e f).
Proof. apply wf_add. Qed.
Lemma wf_mul e a : wf e -> wf (e_mul e a).
Proof. unfold wf, keys. cbn. now rewrite keys_map. Qed.

Lemma build_correct f : divides_ok f ->
  exists e, build f = Some e /\ wf e /\ forall x, e_eval e x == meaning f x.
Proof.
  induction f; cbn [build divides_ok meaning]; intros H;
    repeat match goal with
    | H : _ /\ _ |- _ => destruct H
    end;
    repeat match goal with
    | IH : ?P -> ex _, H : ?P |- _ =>
        let e := fresh "e" in let E := fresh "E" in let W := fresh "W" in let V := fresh "V" in
        destruct (IH H) as (e & E & W & V); clear IH; rewrite E; cbn [option_map]
    end.
  - eexists; split; [reflexivity|]. split; [repeat constructor; intros []|]. intros; apply eval_var.
  - exists e; auto.
  - exists (e_neg e); split; [reflexivity|]. split; [now apply wf_neg|]. intros. now rewrite eval_neg, V.
  - eexists; split; [reflexivity|]. split; [now apply wf_add|]. intros. rewrite eval_add. now rewrite V, V0.
  - eexists; split; [reflexivity|]. split; [now apply wf_sub|]. intros. rewrite eval_sub. now rewrite V, V0.
  - eexists; split; [reflexivity|]. split; [exact W|]. intros. rewrite eval_add_value, V. lra.
  - eexists; split; [reflexivity|]. split; [exact W|]. intros. rewrite eval_add_value, V. lra.
  - eexists; split; [reflexivity|]. split; [exact W|]. intros. rewrite eval_sub_value, V. lra.
  - eexists; split; [reflexivity|]. split; [now apply wf_neg|]. intros. rewrite eval_value_sub, V. lra.
  - eexists; split; [reflexivity|]. split; [now apply wf_mul|]. intros. rewrite eval_mul, V. lra.
  - eexists; split; [reflexivity|]. split; [now apply wf_mul|]. intros. rewrite eval_mul, V. lra.
  - unfold e_div. destruct (Qeq_bool a 0) eqn:Ea; [apply Qeq_bool_eq in Ea; contradiction|].
    eexists; split; [reflexivity|]. split; [unfold wf, keys; cbn; now rewrite keys_map|].
    intros x. rewrite <- V, !eval_lin. cbn.
    rewrite (lin_map _ _ _ (/ a)) by (intros; unfold Qdiv; lra). unfold Qdiv. lra.
Qed.

(** * Extensionality and coefficients *)

Lemma find_in s v c : sens_find s v = Some c -> In (v, c) s.
Proof.
  induction s as [|[w d] tl IH]; cbn [sens_find]; intros H; [discriminate|].
  destruct (Nat.eqb_spec w v) as [->|]; [injection H as ->; now left|right; auto].
Qed.
Lemma find_none s v : sens_find s v = None <-> ~ In v (map fst s).
Proof.
  induction s as [|[w d] tl IH]; cbn [sens_find map fst In].
  - split; [intros _ []|reflexivity].
  - destruct (Nat.eqb_spec w v) as [->|N].
    + split; [discriminate|intros H; exfalso; apply H; now left].
    + rewrite IH. intuition.
Qed.
Lemma in_find s v c : NoDup (map fst s) -> In (v, c) s -> sens_find s v = Some c.
Proof.
  induction s as [|[w d] tl IH]; cbn [sens_find map fst]; intros Hnd Hin; [destruct Hin|destruct Hin as [E|H]].
  - injection E as -> ->. now rewrite Nat.eqb_refl.
  - inversion Hnd as [|? ? Hni Hnd']; subst. destruct (Nat.eqb_spec w v) as [->|]; [|auto].
    exfalso. apply Hni. apply (in_map fst) in H. exact H.
Qed.

Lemma lin_erase s v x : NoDup (map fst s) ->
  lin s x == lin (sens_erase s v) x + coef s v * inject_Z (x v).
Proof.
  unfold coef. induction s as [|[w d] tl IH]; intros H; cbn [lin sens_erase sens_find]; [lra|].
  inversion H as [|? ? Hni Hnd]; subst. destruct (Nat.eqb_spec w v) as [->|N]; [lra|].
  cbn [lin]. rewrite (IH Hnd). lra.
Qed.

Lemma in_erase s v w : In w (map fst (sens_erase s v)) -> In w (map fst s).
Proof.
  induction s as [|[u d] tl IH]; cbn [sens_erase map fst]; [tauto|].
  destruct (Nat.eqb u v); cbn [map fst In]; intuition.
Qed.
Lemma nodup_erase s v : NoDup (map fst s) -> NoDup (map fst (sens_erase s v)).
Proof.
  induction s as [|[u d] tl IH]; intros H; cbn [sens_erase map fst] in *; [constructor|].
  inversion H as [|? ? Hni Hnd]; subst. destruct (Nat.eqb u v); [exact Hnd|].
  cbn [map fst]. constructor; auto. intros Hin. apply Hni. eapply in_erase; eauto.
Qed.
Lemma notin_erase s v : NoDup (map fst s) -> ~ In v (map fst (sens_erase s v)).
Proof.
  induction s as [|[u d] tl IH]; intros H; cbn [sens_erase map fst] in *; [intros []|].
  inversion H as [|? ? Hni Hnd]; subst. destruct (Nat.eqb_spec u v) as [->|N]; [exact Hni|].
  cbn [map fst In]. intros [|Hin]; [contradiction|]. now apply IH.
Qed.

(** * C02 *)
Lemma lower_fold (s : sens) (vi : nat -> vinfo) : forall a,
  fold_left (fun acc p =>
    let i := vi (fst p) in
    if vi_fixed i then acc + snd p * inject_Z (vi_value i)
    else acc + snd p * inject_Z (if Qlt_le_dec 0 (snd p) then vi_lower i else vi_upper i)) s a
  == a + fold_right (fun p acc => snd p * inject_Z (
      let i := vi (fst p) in if vi_fixed i then vi_value i else
      if Qlt_le_dec 0 (snd p) then vi_lower i else vi_upper i) + acc) 0 s.
Proof.
  induction s as [|[v c] tl IH]; intros a; cbn [fold_left fold_right fst snd]; [lra|].
  rewrite IH. cbv zeta. destruct (vi_fixed (vi v)); lra.
Qed.
Lemma upper_fold (s : sens) (vi : nat -> vinfo) : forall a,
  fold_left (fun acc p =>
    let i := vi (fst p) in
    if vi_fixed i then acc + snd p * inject_Z (vi_value i)
    else acc + snd p * inject_Z (if Qlt_le_dec 0 (snd p) then vi_upper i else vi_lower i)) s a
  == a + fold_right (fun p acc => snd p * inject_Z (
      let i := vi (fst p) in if vi_fixed i then vi_value i else
      if Qlt_le_dec 0 (snd p) then vi_upper i else vi_lower i) + acc) 0 s.
Proof.
  induction s as [|[v c] tl IH]; intros a; cbn [fold_left fold_right fst snd]; [lra|].
  rewrite IH. cbv zeta. destruct (vi_fixed (vi v)); lra.
Qed.

Lemma inject_Z_le' a b : (a <= b)%Z -> inject_Z a <= inject_Z b.
Proof. intros. rewrite <- Zle_Qle. assumption. Qed.

Lemma Qmul_le_pos c a b : 0 <= c -> a <= b -> c * a <= c * b.
Proof. intros. nra. Qed.
Lemma Qmul_le_neg c a b : c <= 0 -> a <= b -> c * b <= c * a.
Proof. intros. nra. Qed.

Lemma lower_bound_valid e vi x : admissible vi x -> e_lower e vi <= e_eval e x.
Proof.
  intros H. unfold e_lower. rewrite lower_fold, eval_lin.
  assert (forall s, fold_right (fun p acc => snd p * inject_Z (
      let i := vi (fst p) in if vi_fixed i then vi_value i else
      if Qlt_le_dec 0 (snd p) then vi_lower i else vi_upper i) + acc) 0 s <= lin s x) as Hs.
  { induction s as [|[v c] tl IH]; cbn [fold_right lin fst snd]; [lra|].
    destruct (H v) as [H1 H2]. cbv zeta in IH |- *. destruct (vi_fixed (vi v)).
    - rewrite (H1 eq_refl). lra.
    - specialize (H2 eq_refl). destruct H2 as [Ha Hb].
      apply inject_Z_le' in Ha, Hb. destruct (Qlt_le_dec 0 c) as [Hc|Hc].
      + apply Qlt_le_weak in Hc. pose proof (Qmul_le_pos _ _ _ Hc Ha). pose proof (Qmul_le_pos _ _ _ Hc Hb). lra.
      + pose proof (Qmul_le_neg _ _ _ Hc Ha). pose proof (Qmul_le_neg _ _ _ Hc Hb). lra. }
  specialize (Hs (ex_sens e)). lra.
Qed.
Lemma upper_bound_valid e vi x : admissible vi x -> e_eval e x <= e_upper e vi.
Proof.
  intros H. unfold e_upper. rewrite upper_fold, eval_lin.
  assert (forall s, lin s x <= fold_right (fun p acc => snd p * inject_Z (
      let i := vi (fst p) in if vi_fixed i then vi_value i else
      if Qlt_le_dec 0 (snd p) then vi_upper i else vi_lower i) + acc) 0 s) as Hs.
  { induction s as [|[v c] tl IH]; cbn [fold_right lin fst snd]; [lra|].
    destruct (H v) as [H1 H2]. cbv zeta in IH |- *. destruct (vi_fixed (vi v)).
    - rewrite (H1 eq_refl). lra.
    - specialize (H2 eq_refl). destruct H2 as [Ha Hb].
      apply inject_Z_le' in Ha, Hb. destruct (Qlt_le_dec 0 c) as [Hc|Hc].
      + apply Qlt_le_weak in Hc. pose proof (Qmul_le_pos _ _ _ Hc Ha). pose proof (Qmul_le_pos _ _ _ Hc Hb). lra.
      + pose proof (Qmul_le_neg _ _ _ Hc Ha). pose proof (Qmul_le_neg _ _ _ Hc Hb). lra. }
  specialize (Hs (ex_sens e)). lra.
Qed.

Definition corner (lo : bool) (e : expr) (vi : nat -> vinfo) (v : nat) : Z :=
  let i := vi v in
  if vi_fixed i then vi_value i
  else if Qlt_le_dec 0 (coef (ex_sens e) v) then (if lo then vi_lower i else vi_upper i)
       else (if lo then vi_upper i else vi_lower i).

Lemma corner_admissible lo e vi : (forall v, vi_fixed (vi v) = false -> (vi_lower (vi v) <= vi_upper (vi v))%Z) ->
  admissible vi (corner lo e vi).
Proof.
  intros H v. unfold corner. cbv zeta. destruct (vi_fixed (vi v)) eqn:E.
  - split; [reflexivity|discriminate].
  - split; [discriminate|]. intros _. specialize (H v E). destruct (Qlt_le_dec _ _), lo; lia.
Qed.

Lemma bounds_attained e vi : wf e -> (forall v, vi_fixed (vi v) = false -> (vi_lower (vi v) <= vi_upper (vi v))%Z) ->
  (exists x, admissible vi x /\ e_eval e x == e_lower e vi) /\
  (exists x, admissible vi x /\ e_eval e x == e_upper e vi).
Proof.
  intros Hwf Hb. split.
  - exists (corner true e vi). split; [now apply corner_admissible|].
    unfold e_lower. rewrite lower_fold, eval_lin. apply Qplus_comp; [reflexivity|].
    assert (Hs : forall s, incl s (ex_sens e) -> lin s (corner true e vi) == fold_right (fun p acc => snd p * inject_Z (
      let i := vi (fst p) in if vi_fixed i then vi_value i else
      if Qlt_le_dec 0 (snd p) then vi_lower i else vi_upper i) + acc) 0 s).
    { induction s as [|[v c] tl IH]; intros Hi; cbn [fold_right lin fst snd]; [lra|].
      rewrite IH by (intros p Hp; apply Hi; now right).
      assert (Hc : coef (ex_sens e) v = c).
      { unfold coef. rewrite (in_find _ v c Hwf); [reflexivity|]. apply Hi. now left. }
      unfold corner. rewrite Hc. cbv zeta. destruct (vi_fixed (vi v)); [lra|].
      destruct (Qlt_le_dec 0 c); lra. }
    apply Hs, incl_refl.
  - exists (corner false e vi). split; [now apply corner_admissible|].
    unfold e_upper. rewrite upper_fold, eval_lin. apply Qplus_comp; [reflexivity|].
    assert (Hs : forall s, incl s (ex_sens e) -> lin s (corner false e vi) == fold_right (fun p acc => snd p * inject_Z (
      let i := vi (fst p) in if vi_fixed i then vi_value i else
      if Qlt_le_dec 0 (snd p) then vi_upper i else vi_lower i) + acc) 0 s).
    { induction s as [|[v c] tl IH]; intros Hi; cbn [fold_right lin fst snd]; [lra|].
      rewrite IH by (intros p Hp; apply Hi; now right).
      assert (Hc : coef (ex_sens e) v = c).
      { unfold coef. rewrite (in_find _ v c Hwf); [reflexivity|]. apply Hi. now left. }
      unfold corner. rewrite Hc. cbv zeta. destruct (vi_fixed (vi v)); [lra|].
      destruct (Qlt_le_dec 0 c); lra. }
    apply Hs, incl_refl.
Qed.

(** * C03 *)
Lemma value_or_zero_coef addr s v : (forall a b, addr a = addr b -> a = b) ->
  value_or_zero (map (fun p => (addr (fst p), snd p)) s) (addr v) = coef s v.
Proof.
  intros Hinj. unfold coef. induction s as [|[w c] tl IH]; cbn [map value_or_zero sens_find fst snd]; [reflexivity|].
  destruct (N.eqb_spec (addr w) (addr v)) as [E|E].
  - apply Hinj in E. subst. now rewrite Nat.eqb_refl.
  - destruct (Nat.eqb_spec w v) as [->|]; [congruence|exact IH].
Qed.

Fixpoint delta (s : sens) (x : nat -> Z) (m : alterations) : Q :=
  match m with [] => 0 | (v, n) :: tl => coef s v * inject_Z (n - x v) + delta s x tl end.

Lemma lin_set s x v n : NoDup (map fst s) ->
  lin s (set_val x v n) == lin s x + coef s v * inject_Z (n - x v).
Proof.
  intros H. rewrite (lin_erase s v x H), (lin_erase s v (set_val x v n) H).
  unfold set_val at 2. rewrite Nat.eqb_refl.
  assert (E : lin (sens_erase s v) (set_val x v n) == lin (sens_erase s v) x).
  { pose proof (notin_erase s v H) as Hn. induction (sens_erase s v) as [|[w c] tl IH]; cbn [lin]; [lra|].
    cbn [map fst In] in Hn. rewrite IH by tauto. unfold set_val.
    destruct (Nat.eqb_spec w v); [subst; tauto|lra]. }
  rewrite E. replace (n - x v)%Z with (n + - x v)%Z by lia. rewrite inject_Z_plus, inject_Z_opp. lra.
Qed.

Lemma delta_ext s x y m : (forall v, In v (map fst m) -> x v = y v) -> delta s x m == delta s y m.
Proof.
  induction m as [|[v n] tl IH]; cbn [delta map fst In]; intros H; [lra|].
  rewrite IH by (intros; apply H; now right). rewrite (H v) by now left. lra.
Qed.

Lemma lin_apply s m : NoDup (map fst s) -> forall x, proper m ->
  lin s (apply_move x m) == lin s x + delta s x m.
Proof.
  intros Hs. unfold proper, apply_move. induction m as [|[v n] tl IH]; intros x Hp; cbn [fold_left delta map fst snd] in *; [lra|].
  inversion Hp as [|? ? Hni Hnd]; subst.
  rewrite IH by exact Hnd. rewrite (lin_set s x v n Hs).
  rewrite (delta_ext s (set_val x v n) x).
  - lra.
  - intros w Hw. unfold set_val. destruct (Nat.eqb_spec w v); [subst; contradiction|reflexivity].
Qed.

Lemma es_loop_spec addr s x m key_size e : (forall a b, addr a = addr b -> a = b) ->
  wf e -> es_expr s = e ->
  hm_setup (map (fun p => (addr (fst p), snd p)) (ex_sens e)) key_size = Some (es_table s) ->
  forall acc, exists q, es_eval_loop addr s x m acc = Some q /\ q == acc + delta (ex_sens e) x m.
Proof.
  intros Hinj Hwf He Ht.
  assert (Hat : forall v, hm_at (es_table s) (addr v) = Some (coef (ex_sens e) v)).
  { intros v. destruct (hm_correct (map (fun p => (addr (fst p), snd p)) (ex_sens e)) key_size) as (h & Hh & Ha).
    - rewrite map_map. cbn [fst]. rewrite <- (map_map fst addr). unfold wf, keys in Hwf.
      clear -Hinj Hwf. induction (map fst (ex_sens e)) as [|k l IH]; cbn [map]; [constructor|].
      inversion Hwf as [|? ? Hni Hnd]; subst. constructor; auto.
      intros Hin. apply in_map_iff in Hin as (k' & E & Hin). apply Hinj in E. now subst.
    - rewrite Ht in Hh. injection Hh as ->. rewrite Ha. now rewrite value_or_zero_coef. }
  induction m as [|[v n] tl IH]; intros acc; cbn [es_eval_loop delta].
  - exists acc. split; [reflexivity|lra].
  - rewrite Hat. destruct (IH (acc + coef (ex_sens e) v * inject_Z (n - x v))) as (q & Hq & Eq).
    exists q. split; [exact Hq|]. rewrite Eq. lra.
Qed.

Lemma es_run_spec addr key_size e : (forall a b, addr a = addr b -> a = b) -> wf e ->
  forall ms s x, es_expr s = e ->
  hm_setup (map (fun p => (addr (fst p), snd p)) (ex_sens e)) key_size = Some (es_table s) ->
  es_value s == e_eval e x -> Forall proper ms ->
  exists s' x', es_run addr s x ms = Some (s', x') /\ x' = fold_left apply_move ms x /\ es_value s' == e_eval e x'.
Proof.
  intros Hinj Hwf. induction ms as [|m tl IH]; intros s x He Ht Hv Hp; cbn [es_run fold_left].
  - eauto.
  - inversion Hp as [|? ? Hm Htl]; subst. unfold es_update_move, es_eval_move.
    destruct (es_loop_spec addr s x m key_size (es_expr s) Hinj Hwf eq_refl Ht (es_value s)) as (q & -> & Eq).
    apply IH; auto. cbn [es_value]. rewrite Eq, Hv, !eval_lin.
    rewrite (lin_apply _ m Hwf x Hm). lra.
Qed.

Lemma es_history addr key_size e x ms :
  (forall a b, addr a = addr b -> a = b) -> wf e -> Forall proper ms ->
  exists s s' x', es_setup addr key_size e = Some s /\
    es_run addr (es_update s x) x ms = Some (s', x') /\
    x' = fold_left apply_move ms x /\ es_value s' == e_eval e x'.
Proof.
  intros Hinj Hwf Hp. unfold es_setup.
  destruct (hm_correct (map (fun p => (addr (fst p), snd p)) (ex_sens e)) key_size) as (h & Hh & _).
  { rewrite map_map. cbn [fst]. rewrite <- (map_map fst addr). unfold wf, keys in Hwf.
    clear -Hinj Hwf. induction (map fst (ex_sens e)) as [|k l IH]; cbn [map]; [constructor|].
    inversion Hwf as [|? ? Hni Hnd]; subst. constructor; auto.
    intros Hin. apply in_map_iff in Hin as (k' & E & Hin). apply Hinj in E. now subst. }
  rewrite Hh. eexists.
  destruct (es_run_spec addr key_size e Hinj Hwf ms (es_update (mkEs e h 0) x) x) as (s' & x' & H1 & H2 & H3); auto.
  { cbn. reflexivity. }
  exists s', x'. split; [reflexivity|]. auto.
Qed.

(** The properness condition is needed. *)
Lemma es_improper : exists addr key_size e x m s s' x',
  (forall a b, addr a = addr b -> a = b) /\ wf e /\ es_setup addr key_size e = Some s /\
  es_run addr (es_update s x) x [m] = Some (s', x') /\ ~ es_value s' == e_eval e x'.
Proof.
  exists N.of_nat, 1%N, (e_var 0), (fun _ => 0%Z), [(0%nat, 1%Z); (0%nat, 1%Z)].
  eexists _, _, _. split; [intros; now apply Nnat.Nat2N.inj|]. split; [repeat constructor; intros []|].
  split; [reflexivity|]. split; [reflexivity|]. vm_compute. discriminate.
Qed.

(** * C04 *)
Lemma solve_correct e v : wf e -> forall c, sens_find (ex_sens e) v = Some c -> ~ c == 0 ->
  exists f, e_solve e v = Some f /\ wf f /\ ~ In v (keys f) /\
    forall x, (e_eval e x == 0 <-> inject_Z (x v) == e_eval f x).
Proof.
  intros Hwf c Hc Hn. unfold e_solve. rewrite Hc.
  destruct (Qeq_bool c 0) eqn:Ec; [apply Qeq_bool_eq in Ec; contradiction|].
  eexists. split; [reflexivity|]. unfold wf, keys. cbn [ex_sens].
  rewrite keys_map. split; [now apply nodup_erase|]. split; [now apply notin_erase|].
  intros x. rewrite !eval_lin. cbn [ex_sens ex_const].
  rewrite (lin_map _ _ _ (- (1 / c))) by (intros; lra).
  rewrite (lin_erase (ex_sens e) v x Hwf). unfold coef. rewrite Hc.
  set (L := lin (sens_erase (ex_sens e) v) x). set (X := inject_Z (x v)). set (k := ex_const e).
  assert (Hr : c * (1 / c) == 1) by (unfold Qdiv; rewrite Qmult_1_l; now apply Qmult_inv_r).
  set (r := 1 / c) in *. clearbody r L X k. split; intros H.
  - assert (E : X == X * (c * r)) by (rewrite Hr; lra). rewrite E.
    assert (c * X == - (k + L)) by lra.
    setoid_replace (X * (c * r)) with ((c * X) * r) by ring. rewrite H0. ring.
  - rewrite H. setoid_replace (k + (L + c * (k * - r + L * - r))) with ((k + L) * (1 - c * r)) by ring.
    rewrite Hr. ring.
Qed.

Lemma find_app_fresh s v : sens_find s v = None -> sens_find (s ++ [(v, 0)]) v = Some 0.
Proof.
  induction s as [|[w d] tl IH]; cbn; [now rewrite Nat.eqb_refl|].
  destruct (Nat.eqb w v); [discriminate|auto].
Qed.
Lemma lin_app s t x : lin (s ++ t) x == lin s x + lin t x.
Proof. induction s as [|[w d] tl IH]; cbn [app lin]; [lra|]. rewrite IH. lra. Qed.

Lemma coef_sens_add s v c w : coef (sens_add s v c) w == coef s w + (if Nat.eqb v w then c else 0).
Proof.
  unfold coef. induction s as [|[u d] tl IH]; cbn [sens_add sens_find].
  - destruct (Nat.eqb v w); lra.
  - destruct (Nat.eqb_spec u v) as [->|N]; cbn [sens_find].
    + destruct (Nat.eqb v w); lra.
    + destruct (Nat.eqb_spec u w) as [->|]; [|exact IH].
      destruct (Nat.eqb_spec v w); [congruence|lra].
Qed.
Lemma coef_fold_add t w : ~ In w (map fst t) -> forall s,
  coef (fold_left (fun s p => sens_add s (fst p) (snd p)) t s) w == coef s w.
Proof.
  induction t as [|[v c] tl IH]; intros H s; cbn [fold_left map fst snd In] in *; [lra|].
  rewrite IH by tauto. rewrite coef_sens_add. destruct (Nat.eqb_spec v w); [tauto|lra].
Qed.

Lemma substitute_correct e v f : wf e -> wf f -> ~ In v (keys f) ->
  wf (e_substitute e v f) /\ ~ In v (keys (e_substitute e v f)) /\
  forall x, inject_Z (x v) == e_eval f x -> e_eval (e_substitute e v f) x == e_eval e x.
Proof.
  intros Hwf Hf Hv. unfold e_substitute.
  set (s := match sens_find (ex_sens e) v with Some _ => ex_sens e | None => ex_sens e ++ [(v, 0)] end).
  set (c := match sens_find s v with Some c => c | None => 0 end).
  assert (Hs : NoDup (map fst s) /\ (forall x, lin s x == lin (ex_sens e) x)).
  { unfold s. destruct (sens_find (ex_sens e) v) eqn:E; [split; [exact Hwf|reflexivity]|].
    split.
    - rewrite map_app. cbn [map fst]. apply find_none in E.
      apply NoDup_rev in Hwf. unfold keys in Hwf.
      rewrite <- (rev_involutive (map fst (ex_sens e) ++ [v])). apply NoDup_rev.
      rewrite rev_app_distr. cbn. constructor; [now rewrite <- in_rev|exact Hwf].
    - intros x. rewrite lin_app. cbn. lra. }
  destruct Hs as [Hs1 Hs2]. cbv zeta.
  cbn [e_add ex_sens ex_const e_mul].
  set (t := sens_map (fun d => d * c) (ex_sens f)).
  assert (Ht : NoDup (map fst (fold_left (fun s p => sens_add s (fst p) (snd p)) t s))) by now apply nodup_fold_add.
  unfold wf, keys. cbn [ex_sens].
  split; [now apply nodup_erase|]. split; [now apply notin_erase|].
  intros x Hx. rewrite !eval_lin. cbn [ex_sens ex_const].
  pose proof (lin_erase _ v x Ht) as HL.
  rewrite (coef_fold_add t v) in HL by (unfold t; rewrite keys_map; exact Hv).
  rewrite lin_fold_add in HL. unfold t in HL. rewrite (lin_map _ _ _ c) in HL by (intros; lra).
  fold t in HL. rewrite Hs2 in HL. change (coef s v) with c in HL.
  rewrite eval_lin in Hx. rewrite Hx in HL. lra.
Qed.

(** Substituting an expression that mentions the substituted variable is wrong. *)
Lemma substitute_self_refuted : exists e v f x,
  wf e /\ wf f /\ inject_Z (x v) == e_eval f x /\ ~ e_eval (e_substitute e v f) x == e_eval e x.
Proof.
  exists (e_var 0), 0%nat, (mkExpr [(0%nat, 2)] (-1)), (fun _ => 1%Z).
  split; [repeat constructor; intros []|]. split; [repeat constructor; intros []|].
  split; [vm_compute; reflexivity|vm_compute; discriminate].
Qed.

Lemma e_eval_move_delta e c x m : e_eval_move e c x m == c + delta (ex_sens e) x m.
Proof.
  unfold e_eval_move. revert c. induction m as [|[v n] tl IH]; intros c; cbn [fold_left delta fst snd]; [lra|].
  rewrite IH. lra.
Qed.
Lemma e_eval_move_correct e c x m : wf e -> proper m -> c == e_eval e x ->
  e_eval_move e c x m == e_eval e (apply_move x m).
Proof.
  intros Hwf Hp Hc. rewrite e_eval_move_delta, Hc, !eval_lin, (lin_apply _ _ Hwf _ Hp). lra.
Qed.

Lemma table_move addr key_size e s x m : (forall a b, addr a = addr b -> a = b) -> wf e ->
  es_setup addr key_size e = Some s -> forall c,
  exists q, es_eval_move addr (mkEs e (es_table s) c) x m = Some q /\ q == e_eval_move e c x m.
Proof.
  intros Hinj Hwf Hs c. unfold es_setup in Hs.
  destruct (hm_setup _ _) as [h|] eqn:Eh; [|discriminate]. injection Hs as <-. cbn [es_table].
  destruct (es_loop_spec addr (mkEs e h c) x m key_size e Hinj Hwf eq_refl Eh c) as (q & Hq & Eq).
  exists q. split; [exact Hq|]. now rewrite Eq, e_eval_move_delta.
Qed.

Lemma solve_substitute e v c g : wf e -> wf g -> sens_find (ex_sens e) v = Some c -> ~ c == 0 ->
  exists f, e_solve e v = Some f /\ wf f /\ ~ In v (keys f) /\
    wf (e_substitute g v f) /\ ~ In v (keys (e_substitute g v f)) /\
    forall x, (e_eval e x == 0 <-> inject_Z (x v) == e_eval f x) /\
              (e_eval e x == 0 -> e_eval (e_substitute g v f) x == e_eval g x).
Proof.
  intros We Wg Hc Hn. destruct (solve_correct e v We c Hc Hn) as (f & Hf & Wf & Nf & Hx).
  destruct (substitute_correct g v f Wg Wf Nf) as (W & N & E).
  exists f. do 5 (split; [assumption|]). intros x. split; [apply Hx|]. intros H0. apply E. now apply Hx.
Qed.

(** fixed_term_value accumulates in an int; with integral coefficients nothing is lost. *)
Fixpoint fixed_sum (s : sens) (vi : nat -> vinfo) : Q :=
  match s with
  | [] => 0
  | (v, c) :: tl => (if vi_fixed (vi v) then c * inject_Z (vi_value (vi v)) else 0) + fixed_sum tl vi
  end.

Lemma Qtrunc_Z q z : q == inject_Z z -> Qtrunc q = z.
Proof.
  unfold Qeq, Qtrunc. cbn. intros H. rewrite Z.mul_1_r in H. rewrite H.
  apply Z.quot_mul. discriminate.
Qed.
Lemma fixed_term_integral e vi : (forall v c, In (v, c) (ex_sens e) -> exists z, c == inject_Z z) ->
  inject_Z (e_fixed_term e vi) == fixed_sum (ex_sens e) vi.
Proof.
  unfold e_fixed_term. intros H.
  assert (G : forall s, (forall v c, In (v, c) s -> exists z, c == inject_Z z) -> forall acc,
    inject_Z (fold_left (fun acc p => let i := vi (fst p) in
      if vi_fixed i then Qtrunc (inject_Z acc + snd p * inject_Z (vi_value i)) else acc) s acc)
    == inject_Z acc + fixed_sum s vi).
  { induction s as [|[v c] tl IH]; intros Hs acc; cbn [fold_left fixed_sum fst snd]; [lra|].
    cbv zeta. rewrite IH by (intros; eapply Hs; right; eassumption).
    destruct (vi_fixed (vi v)); [|lra].
    destruct (Hs v c (or_introl eq_refl)) as (z & Ez).
    rewrite (Qtrunc_Z _ (acc + z * vi_value (vi v))%Z).
    - rewrite inject_Z_plus, inject_Z_mult, Ez. lra.
    - rewrite inject_Z_plus, inject_Z_mult, Ez. lra. }
  rewrite (G _ H). change (inject_Z 0) with 0. lra.
Qed.
