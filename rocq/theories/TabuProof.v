(** Proofs for C42, C43 and C51. *)
From Coq Require Import List ZArith QArith Qabs Lia Lqa Bool.
From Verif Require Import ExprModel ExprSpec EvalModel ConstraintModel SolutionModel SolutionSpec SolutionProof TabuModel TabuSpec.
Import ListNotations.
Local Open Scope Z_scope.

Lemma times_app l l' v : times (l ++ l') v = times l v + times l' v.
Proof. unfold times. rewrite count_occ_app. lia. Qed.
Lemma times_one w v : times [w] v = if Nat.eqb v w then 1 else 0.
Proof.
  unfold times. cbn [count_occ]. destruct (Nat.eq_dec w v) as [->|D]; [now rewrite Nat.eqb_refl|].
  assert (Nat.eqb v w = false) by (apply Nat.eqb_neq; auto). rewrite H. reflexivity.
Qed.
Lemma times_nonneg l v : 0 <= times l v. Proof. unfold times. lia. Qed.

Lemma squares_absent l w vs : ~ In w vs -> squares (l ++ [w]) vs = squares l vs.
Proof.
  induction vs as [|v vs IH]; intros H; cbn [squares fold_right]; [reflexivity|].
  cbn [In] in H. fold (squares (l ++ [w]) vs). fold (squares l vs). rewrite IH by tauto. rewrite times_app, times_one.
  assert (E : Nat.eqb v w = false) by (apply Nat.eqb_neq; intuition). rewrite E. lia.
Qed.
Lemma squares_snoc l w vs : NoDup vs -> In w vs -> squares (l ++ [w]) vs = squares l vs + (2 * times l w + 1).
Proof.
  induction vs as [|v vs IH]; intros N H; [destruct H|]. inversion N as [|? ? N1 N2]; subst.
  cbn [squares fold_right]. fold (squares (l ++ [w]) vs). fold (squares l vs). rewrite times_app, times_one.
  destruct (Nat.eq_dec v w) as [->|D].
  - rewrite Nat.eqb_refl, squares_absent by exact N1. lia.
  - destruct H as [H|H]; [contradiction|]. rewrite (IH N2 H). apply Nat.eqb_neq in D. rewrite D. lia.
Qed.
Fixpoint total (l vs : list nat) : Z := match vs with [] => 0 | v :: vs => times l v + total l vs end.
Lemma total_snoc l w vs : NoDup vs -> total (l ++ [w]) vs = total l vs + (if in_dec Nat.eq_dec w vs then 1 else 0).
Proof.
  induction vs as [|v vs IH]; intros N; cbn [total]; [destruct (in_dec _ w []) as [[]|]; lia|]. inversion N as [|? ? N1 N2]; subst.
  rewrite (IH N2), times_app, times_one. destruct (Nat.eq_dec v w) as [->|D].
  - rewrite Nat.eqb_refl. destruct (in_dec Nat.eq_dec w (w :: vs)) as [_|K]; [|exfalso; apply K; now left].
    destruct (in_dec Nat.eq_dec w vs); [contradiction|lia].
  - apply Nat.eqb_neq in D as D'. rewrite D'. destruct (in_dec Nat.eq_dec w vs), (in_dec Nat.eq_dec w (v :: vs)) as [K|K]; try lia.
    + exfalso. apply K. now right.
    + destruct K as [K|K]; [congruence|contradiction].
Qed.
Lemma total_length l vs : NoDup vs -> incl l vs -> total l vs = Z.of_nat (length l).
Proof.
  intros N. induction l as [|w l IH] using rev_ind; intros I.
  - cbn. clear N I. induction vs as [|v vs IH]; cbn [total]; [reflexivity|]. rewrite IH. reflexivity.
  - rewrite (total_snoc _ _ _ N), IH by (intros x Hx; apply I, in_app_iff; now left).
    destruct (in_dec Nat.eq_dec w vs) as [_|K]; [rewrite app_length; cbn [length]; lia|].
    exfalso. apply K, I, in_app_iff. right. now left.
Qed.
Lemma squares_le l vs : 0 <= squares l vs <= total l vs * total l vs /\ 0 <= total l vs.
Proof.
  induction vs as [|v vs IH]; cbn [squares fold_right total]; [lia|]. fold (squares l vs). pose proof (times_nonneg l v). nia.
Qed.
Lemma squares_pos l vs : 0 < total l vs -> 0 < squares l vs.
Proof.
  induction vs as [|v vs IH]; cbn [squares fold_right total]; [lia|]. fold (squares l vs). intros H.
  pose proof (times_nonneg l v). destruct (squares_le l vs) as [? ?].
  destruct (Z.eq_dec (times l v) 0) as [E|E]; [rewrite E in *; assert (0 < squares l vs) by (apply IH; lia); lia|].
  assert (1 * 1 <= times l v * times l v) by (apply Z.mul_le_mono_nonneg; lia). lia.
Qed.
(** Cauchy-Schwarz. *)
Lemma squares_spread c l vs : 0 <= squares l vs + Z.of_nat (length vs) * (c * c) - 2 * total l vs * c.
Proof.
  induction vs as [|v vs IH]; cbn [squares fold_right total length]; [lia|]. fold (squares l vs).
  rewrite Nat2Z.inj_succ. pose proof (Z.square_nonneg (times l v - c)). lia.
Qed.
Lemma squares_cauchy l vs : total l vs * total l vs <= Z.of_nat (length vs) * squares l vs.
Proof.
  induction vs as [|v vs IH]; cbn [squares fold_right total length]; [lia|]. fold (squares l vs).
  rewrite Nat2Z.inj_succ. pose proof (squares_spread (times l v) l vs). nia.
Qed.

(** ** The memory *)
Definition mem_inv (es : list mem_event) (m : memory) : Prop :=
  (forall v, mm_count m v = times (altered es) v) /\ mm_total m = Z.of_nat (length (altered es)) /\
  (forall vs, NoDup vs -> incl (altered es) vs -> mm_num m = squares (altered es) vs) /\
  (forall v, mm_vcount m v = times (violations es) v) /\ mm_vtotal m = Z.of_nat (length (violations es)) /\
  (forall vs, NoDup vs -> incl (violations es) vs -> mm_vnum m = squares (violations es) vs).
Definition closed (m : memory) : Prop :=
  (mm_primal m == inject_Z (mm_num m) / (inject_Z (Z.max 1 (mm_total m)) * inject_Z (Z.max 1 (mm_total m))) /\
   mm_dual m == inject_Z (mm_vnum m) / (inject_Z (Z.max 1 (mm_vtotal m)) * inject_Z (Z.max 1 (mm_vtotal m))))%Q /\
  ((0 < mm_total m)%Z -> mm_recip m == 1 / inject_Z (mm_total m))%Q.

Lemma alter_fold it w l : forall (m : memory) (acc : list nat),
  (forall v, mm_count m v = times acc v) -> mm_total m = Z.of_nat (length acc) ->
  (forall vs, NoDup vs -> incl acc vs -> mm_num m = squares acc vs) ->
  let m' := fold_left (mem_alter it w) l m in
  (forall v, mm_count m' v = times (acc ++ map fst l) v) /\ mm_total m' = Z.of_nat (length (acc ++ map fst l)) /\
  (forall vs, NoDup vs -> incl (acc ++ map fst l) vs -> mm_num m' = squares (acc ++ map fst l) vs) /\
  mm_vcount m' = mm_vcount m /\ mm_vtotal m' = mm_vtotal m /\ mm_vnum m' = mm_vnum m.
Proof.
  induction l as [|[v d] l IH]; intros m acc H1 H2 H3; cbn [fold_left map fst].
  - rewrite app_nil_r. repeat split; assumption.
  - destruct (IH (mem_alter it w m (v, d)) (acc ++ [v])) as (A & B & C & D).
    + intros u. cbn [mem_alter mm_count fst]. unfold upd. rewrite times_app, times_one.
      destruct (Nat.eq_dec u v) as [->|N]; [rewrite Nat.eqb_refl, H1; reflexivity|]. apply Nat.eqb_neq in N. rewrite N, H1. lia.
    + cbn [mem_alter mm_total]. rewrite app_length, H2. cbn [length]. lia.
    + intros vs N I. cbn [mem_alter mm_num fst]. rewrite squares_snoc; [|exact N|apply I, in_app_iff; right; now left].
      rewrite <- (H3 vs N), H1; [reflexivity|]. intros x Hx. apply I, in_app_iff. now left.
    + rewrite <- app_assoc in A, B, C. cbn [app] in A, B, C. split; [exact A|]. split; [exact B|]. split; [exact C|exact D].
Qed.
Lemma violate_fold l : forall (m : memory) (acc : list nat),
  (forall v, mm_vcount m v = times acc v) -> mm_vtotal m = Z.of_nat (length acc) ->
  (forall vs, NoDup vs -> incl acc vs -> mm_vnum m = squares acc vs) ->
  let m' := fold_left mem_violate l m in
  (forall v, mm_vcount m' v = times (acc ++ l) v) /\ mm_vtotal m' = Z.of_nat (length (acc ++ l)) /\
  (forall vs, NoDup vs -> incl (acc ++ l) vs -> mm_vnum m' = squares (acc ++ l) vs) /\
  mm_count m' = mm_count m /\ mm_total m' = mm_total m /\ mm_num m' = mm_num m /\ mm_local m' = mm_local m.
Proof.
  induction l as [|v l IH]; intros m acc H1 H2 H3; cbn [fold_left].
  - rewrite app_nil_r. repeat split; assumption.
  - destruct (IH (mem_violate m v) (acc ++ [v])) as (A & B & C & D).
    + intros u. cbn [mem_violate mm_vcount]. unfold upd. rewrite times_app, times_one.
      destruct (Nat.eq_dec u v) as [->|N]; [rewrite Nat.eqb_refl, H1; reflexivity|]. apply Nat.eqb_neq in N. rewrite N, H1. lia.
    + cbn [mem_violate mm_vtotal]. rewrite app_length, H2. cbn [length]. lia.
    + intros vs N I. cbn [mem_violate mm_vnum]. rewrite squares_snoc; [|exact N|apply I, in_app_iff; right; now left].
      rewrite <- (H3 vs N), H1; [reflexivity|]. intros x Hx. apply I, in_app_iff. now left.
    + rewrite <- app_assoc in A, B, C. cbn [app] in A, B, C. split; [exact A|]. split; [exact B|]. split; [exact C|exact D].
Qed.
Lemma close_closed m : closed (mem_close m).
Proof.
  unfold closed. cbn [mem_close mm_primal mm_num mm_total mm_dual mm_vnum mm_vtotal mm_recip].
  assert (P : forall z, ~ (inject_Z (Z.max 1 z) == 0)%Q) by (intros z H; change 0%Q with (inject_Z 0) in H; apply (proj1 (inject_Z_injective _ _)) in H; lia).
  split; [split|].
  - pose proof (P (mm_total m)). field. assumption.
  - pose proof (P (mm_vtotal m)). field. assumption.
  - intros H. rewrite Z.max_r by lia. reflexivity.
Qed.
Lemma altered_app es e : altered (es ++ [e]) = altered es ++ match e with MUpdate _ _ vs _ => map fst vs | MReset => [] end.
Proof. unfold altered. rewrite flat_map_app. cbn [flat_map]. now rewrite app_nil_r. Qed.
Lemma violations_app es e : violations (es ++ [e]) = violations es ++ match e with MUpdate _ _ _ cs => cs | MReset => [] end.
Proof. unfold violations. rewrite flat_map_app. cbn [flat_map]. now rewrite app_nil_r. Qed.
Lemma mem_run_snoc es e : mem_run (es ++ [e]) = mem_step (mem_run es) e.
Proof. unfold mem_run. now rewrite fold_left_app. Qed.

Lemma mem_run_inv es : mem_inv es (mem_run es) /\ closed (mem_run es).
Proof.
  induction es as [|e es IH] using rev_ind.
  - assert (Sq : forall vs : list nat, 0 = squares [] vs) by (intros vs; induction vs as [|v vs E]; [reflexivity|]; cbn [squares fold_right]; fold (squares [] vs); rewrite <- E; reflexivity).
    split; [split; [reflexivity|]; split; [reflexivity|]; split; [intros; apply Sq|]; split; [reflexivity|]; split; [reflexivity|intros; apply Sq]|].
    split; [split; reflexivity|]. cbn. lia.
  - destruct IH as [(A & B & C & D & E & F) K]. rewrite mem_run_snoc. destruct e as [it w vs cs|]; cbn [mem_step].
    + unfold mem_update. split; [|apply close_closed]. unfold mem_inv. rewrite altered_app, violations_app.
      destruct (alter_fold it w vs (mem_run es) (altered es) A B C) as (A1 & B1 & C1 & D1 & E1 & F1).
      set (m1 := fold_left (mem_alter it w) vs (mem_run es)) in *.
      destruct (violate_fold cs m1 (violations es)) as (A2 & B2 & C2 & D2 & E2 & F2 & _).
      * intros v. rewrite D1. apply D. * rewrite E1. exact E. * intros vs' N I. rewrite F1. now apply F.
      * cbn [mem_close mm_count mm_total mm_num mm_vcount mm_vtotal mm_vnum].
        split; [intros v; rewrite D2; apply A1|]. split; [now rewrite E2|]. split; [intros vs' N I; rewrite F2; now apply C1|].
        split; [exact A2|]. split; [exact B2|exact C2].
    + split; [|exact K]. unfold mem_inv. rewrite altered_app, violations_app, !app_nil_r. exact (conj A (conj B (conj C (conj D (conj E F))))).
Qed.

Lemma share_bounds l vs : NoDup vs -> incl l vs -> l <> [] ->
  let n := Z.of_nat (length l) in
  (1 / inject_Z (Z.of_nat (length vs)) <= inject_Z (squares l vs) / (inject_Z n * inject_Z n) /\
   0 < inject_Z (squares l vs) / (inject_Z n * inject_Z n) /\ inject_Z (squares l vs) / (inject_Z n * inject_Z n) <= 1)%Q.
Proof.
  intros N I H. cbv zeta. pose proof (total_length l vs N I) as T. rewrite <- T.
  assert (Hn : 0 < total l vs) by (destruct l; [congruence|]; rewrite T; cbn [length]; lia).
  assert (Hv : 0 < Z.of_nat (length vs)) by (destruct vs; [cbn in Hn; lia|cbn [length]; lia]).
  pose proof (squares_le l vs) as [L _]. pose proof (squares_pos l vs Hn) as P. pose proof (squares_cauchy l vs) as C.
  rewrite <- inject_Z_mult. set (t := total l vs) in *. set (q := squares l vs) in *. set (n := Z.of_nat (length vs)) in *.
  assert (Pt : (0 < inject_Z (t * t))%Q) by (change 0%Q with (inject_Z 0); rewrite <- Zlt_Qlt; nia).
  assert (Pn : (0 < inject_Z n)%Q) by (change 0%Q with (inject_Z 0); rewrite <- Zlt_Qlt; lia).
  split; [|split].
  - apply Qle_shift_div_l; [exact Pt|]. unfold Qdiv. rewrite Qmult_1_l, Qmult_comm.
    apply Qle_shift_div_r; [exact Pn|]. rewrite <- inject_Z_mult, <- Zle_Qle. nia.
  - apply Qlt_shift_div_l; [exact Pt|]. rewrite Qmult_0_l. change 0%Q with (inject_Z 0). rewrite <- Zlt_Qlt. lia.
  - apply Qle_shift_div_r; [exact Pt|]. rewrite Qmult_1_l, <- Zle_Qle. lia.
Qed.

(** Position of the last alteration of a variable in the history. *)
Definition last_at (acc : list nat) (m : memory) : Prop :=
  mm_total m = Z.of_nat (length acc) /\ (forall v a b, acc = a ++ v :: b -> ~ In v b -> mm_global m v = Z.of_nat (length a)) /\ (forall v, ~ In v acc -> mm_global m v = 0).
Lemma last_split (acc : list nat) (u : nat) a v b : acc ++ [u] = a ++ v :: b -> ~ In v b ->
  (b = [] /\ v = u /\ acc = a) \/ (exists b', b = b' ++ [u] /\ acc = a ++ v :: b' /\ v <> u).
Proof.
  intros E N. destruct (exists_last (l := v :: b)) as (l & z & Hl); [discriminate|]. rewrite Hl, app_assoc in E. apply app_inj_tail in E. destruct E as [E1 E2]. subst z.
  destruct l as [|w l]; cbn [app] in Hl.
  - injection Hl as -> ->. left. now rewrite app_nil_r in E1.
  - injection Hl as -> ->. right. exists l. repeat split; auto. intros ->. apply N, in_app_iff. right. now left.
Qed.
Lemma last_fold it w l : forall m acc, last_at acc m -> last_at (acc ++ map fst l) (fold_left (mem_alter it w) l m).
Proof.
  induction l as [|[u d] l IH]; intros m acc (H1 & H2 & H3); cbn [map fst fold_left]; [now rewrite app_nil_r|].
  replace (acc ++ u :: map fst l) with ((acc ++ [u]) ++ map fst l) by (rewrite <- app_assoc; reflexivity). apply IH.
  split; [|split]; cbn [mem_alter mm_total mm_global fst]; unfold upd.
  - rewrite H1, app_length. cbn [length]. lia.
  - intros v a b E N. destruct (last_split acc u a v b E N) as [(-> & -> & ->)|(b' & -> & -> & Hv)].
    + now rewrite Nat.eqb_refl.
    + rewrite (proj2 (Nat.eqb_neq v u) Hv). apply (H2 v a b'); [reflexivity|]. intros Hb. apply N, in_app_iff. now left.
  - intros v N. assert (v <> u) by (intros ->; apply N, in_app_iff; right; now left). rewrite (proj2 (Nat.eqb_neq v u)) by assumption.
    apply H3. intros Hb. apply N, in_app_iff. now left.
Qed.
Lemma violate_last acc cs : forall m, last_at acc m -> last_at acc (fold_left mem_violate cs m).
Proof. induction cs as [|c cs IH]; intros m H; cbn [fold_left]; [exact H|]. apply IH. exact H. Qed.
Lemma last_alteration es : last_at (altered es) (mem_run es).
Proof.
  induction es as [|e es IH] using rev_ind.
  - split; [reflexivity|]. split; [intros v a b E; destruct a; discriminate|reflexivity].
  - rewrite mem_run_snoc, altered_app. destruct e as [it w vs cs|]; cbn [mem_step].
    +
      exact (violate_last _ cs _ (last_fold it w vs _ _ IH)).
    + rewrite app_nil_r. exact IH.
Qed.
Lemma last_alteration_value es v :
  (forall a b, altered es = a ++ v :: b -> ~ In v b -> mm_global (mem_run es) v = Z.of_nat (length a)) /\
  (~ In v (altered es) -> mm_global (mem_run es) v = 0).
Proof. destruct (last_alteration es) as (_ & H2 & H3). split; [exact (H2 v)|exact (H3 v)]. Qed.
Lemma memory_counts es v : mm_count (mem_run es) v = times (altered es) v /\ mm_vcount (mem_run es) v = times (violations es) v.
Proof. destruct (mem_run_inv es) as [(A & _ & _ & D & _) _]. split; [apply A|apply D]. Qed.

Lemma intensity_value es vs cs : NoDup vs -> incl (altered es) vs -> NoDup cs -> incl (violations es) cs ->
  let m := mem_run es in
  let n := Z.of_nat (length (altered es)) in let k := Z.of_nat (length (violations es)) in
  (altered es <> [] -> mm_primal m == inject_Z (squares (altered es) vs) / (inject_Z n * inject_Z n) /\
     1 / inject_Z (Z.of_nat (length vs)) <= mm_primal m /\ 0 < mm_primal m /\ mm_primal m <= 1)%Q /\
  (violations es <> [] -> mm_dual m == inject_Z (squares (violations es) cs) / (inject_Z k * inject_Z k) /\
     1 / inject_Z (Z.of_nat (length cs)) <= mm_dual m /\ 0 < mm_dual m /\ mm_dual m <= 1)%Q /\
  (altered es = [] -> mm_primal m == 0)%Q /\ (violations es = [] -> mm_dual m == 0)%Q.
Proof.
  intros N I N' I'. cbv zeta. destruct (mem_run_inv es) as [(A & B & C & D & E & F) [[K1 K2] _]].
  rewrite (C vs N I) in K1. rewrite (F cs N' I') in K2. rewrite B in K1. rewrite E in K2.
  assert (Big : forall l : list nat, l <> [] -> Z.max 1 (Z.of_nat (length l)) = Z.of_nat (length l)) by (intros [|a l] H; [congruence|]; cbn [length]; lia).
  split; [|split; [|split]].
  - intros H. rewrite (Big _ H) in K1. destruct (share_bounds _ vs N I H) as (S1 & S2 & S3). cbv zeta in S1, S2, S3. rewrite <- K1 in S1, S2, S3. tauto.
  - intros H. rewrite (Big _ H) in K2. destruct (share_bounds _ cs N' I' H) as (S1 & S2 & S3). cbv zeta in S1, S2, S3. rewrite <- K2 in S1, S2, S3. tauto.
  - intros H. rewrite K1, H. assert (Z0 : squares [] vs = 0) by (clear; induction vs as [|v vs IH]; [reflexivity|]; cbn [squares fold_right]; fold (squares [] vs); rewrite IH; reflexivity).
    rewrite Z0. reflexivity.
  - intros H. rewrite K2, H. assert (Z0 : squares [] cs = 0) by (clear; induction cs as [|v cs IH]; [reflexivity|]; cbn [squares fold_right]; fold (squares [] cs); rewrite IH; reflexivity).
    rewrite Z0. reflexivity.
Qed.

(** ** Frequency penalty *)
Lemma hits_count l mv : proper mv -> fold_left (fun n (a : nat * Z) => n + times l (fst a)) mv 0 = Z.of_nat (length (hits l mv)).
Proof.
  intros P. assert (G : forall n, fold_left (fun n (a : nat * Z) => n + times l (fst a)) mv n = n + fold_right (fun (a : nat * Z) n => times l (fst a) + n) 0 mv).
  { clear P. induction mv as [|a mv IH]; intros n; cbn [fold_left fold_right]; [lia|]. rewrite IH. lia. }
  rewrite G. clear G. induction l as [|w l IH].
  - cbn. clear P. induction mv as [|a mv IH]; [reflexivity|exact IH].
  - assert (S : fold_right (fun (a : nat * Z) n => times (w :: l) (fst a) + n) 0 mv =
       (if existsb (fun a : nat * Z => Nat.eqb (fst a) w) mv then 1 else 0) + fold_right (fun (a : nat * Z) n => times l (fst a) + n) 0 mv).
    { clear IH. induction mv as [|[v z] mv IH]; cbn [fold_right existsb fst]; [reflexivity|].
      unfold proper in P. cbn [map fst] in P. inversion P as [|? ? P1 P2]; subst. rewrite (IH P2).
      change (w :: l) with ([w] ++ l). rewrite times_app, times_one. destruct (Nat.eq_dec v w) as [->|D].
      - rewrite Nat.eqb_refl. cbn [orb]. assert (E : existsb (fun a : nat * Z => Nat.eqb (fst a) w) mv = false).
        { destruct (existsb _ mv) eqn:E; [|reflexivity]. apply existsb_exists in E as ([u y] & E1 & E2). cbn [fst] in E2. apply Nat.eqb_eq in E2. subst u.
          exfalso. apply P1. apply in_map_iff. exists (w, y). auto. }
        rewrite E. lia.
      - apply Nat.eqb_neq in D. rewrite D. cbn [orb]. lia. }
    rewrite S. unfold hits in *. cbn [filter]. destruct (existsb (fun a : nat * Z => Nat.eqb (fst a) w) mv); cbn [length]; lia.
Qed.
Lemma penalty_share es coefficient iteration mv : proper mv -> altered es <> [] ->
  let p := frequency_penalty coefficient (mem_run es) iteration mv in
  (p == if iteration =? 0 then 0 else coefficient * (inject_Z (Z.of_nat (length (hits (altered es) mv))) / inject_Z (Z.of_nat (length (altered es)))))%Q /\
  (0 <= coefficient -> 0 <= p /\ p <= coefficient)%Q.
Proof.
  intros P H. cbv zeta. destruct (mem_run_inv es) as [(A & B & _) [_ K]].
  assert (Hn : 0 < mm_total (mem_run es)) by (rewrite B; destruct (altered es); [congruence|cbn [length]; lia]).
  unfold frequency_penalty. destruct (iteration =? 0).
  - split; [reflexivity|]. intros Hc. split; [apply Qle_refl|exact Hc].
  - assert (F : fold_left (fun n (a : nat * Z) => n + mm_count (mem_run es) (fst a)) mv 0 = Z.of_nat (length (hits (altered es) mv))).
    { rewrite <- (hits_count _ _ P). assert (G : forall n, fold_left (fun n (a : nat * Z) => n + mm_count (mem_run es) (fst a)) mv n = fold_left (fun n (a : nat * Z) => n + times (altered es) (fst a)) mv n).
      { clear P. induction mv as [|a mv IH]; intros n; cbn [fold_left]; [reflexivity|]. rewrite A. apply IH. }
      apply G. }
    rewrite F, (K Hn), B. set (h := Z.of_nat (length (hits (altered es) mv))). set (n := Z.of_nat (length (altered es))) in *.
    assert (Hl : 0 <= h <= n).
    { unfold h, n, hits. split; [lia|]. apply Nat2Z.inj_le. generalize (altered es). intros l. induction l as [|w l IHl]; cbn [filter length]; [lia|].
      destruct (existsb _ mv); cbn [length]; lia. }
    assert (Pn : (0 < inject_Z n)%Q) by (change 0%Q with (inject_Z 0); rewrite <- Zlt_Qlt; lia).
    assert (E : (inject_Z h * (1 / inject_Z n) * coefficient == coefficient * (inject_Z h / inject_Z n))%Q) by (field; lra).
    split; [exact E|]. intros Hc. rewrite E.
    assert (R : (0 <= inject_Z h / inject_Z n /\ inject_Z h / inject_Z n <= 1)%Q).
    { split; [apply Qle_shift_div_l; [exact Pn|]; rewrite Qmult_0_l; change 0%Q with (inject_Z 0); rewrite <- Zle_Qle; lia|].
      apply Qle_shift_div_r; [exact Pn|]. rewrite Qmult_1_l, <- Zle_Qle. lia. }
    destruct R as [R1 R2]. set (q := (inject_Z h / inject_Z n)%Q) in *. clearbody q. split; nra.
Qed.

(** ** Stamps *)
Lemma alter_local it w l : forall m v, mm_local (fold_left (mem_alter it w) l m) v =
  fold_left (fun z (vd : nat * Z) => if Nat.eqb v (fst vd) then it + randomness w (snd vd) else z) l (mm_local m v).
Proof. induction l as [|[u d] l IH]; intros m v; cbn [fold_left]; [reflexivity|]. rewrite IH. reflexivity. Qed.
Lemma stamp_fold (f : Z -> Z) v l : forall z, let r := fold_left (fun z (vd : nat * Z) => if Nat.eqb v (fst vd) then f (snd vd) else z) l z in
  (~ In v (map fst l) /\ r = z) \/ (exists a d b, l = a ++ (v, d) :: b /\ ~ In v (map fst b) /\ r = f d).
Proof.
  induction l as [|[u d] l IH]; intros z; cbv zeta; cbn [fold_left map fst snd In].
  - left. split; [intros []|reflexivity].
  - destruct (Nat.eq_dec v u) as [<-|D].
    + rewrite Nat.eqb_refl. destruct (IH (f d)) as [[H1 H2]|(a & d' & b & H1 & H2 & H3)]; cbv zeta in *.
      * right. exists [], d, l. split; [reflexivity|]. split; assumption.
      * right. exists ((v, d) :: a), d', b. rewrite H1. split; [reflexivity|]. split; [exact H2|]. now rewrite <- H1.
    + apply Nat.eqb_neq in D as D'. rewrite D'. destruct (IH z) as [[H1 H2]|(a & d' & b & H1 & H2 & H3)]; cbv zeta in *.
      * left. split; [intuition|exact H2].
      * right. exists ((u, d) :: a), d', b. rewrite H1. split; [reflexivity|]. split; [exact H2|]. now rewrite <- H1.
Qed.
Lemma shifted_iff w d r : shifted w d r <-> r = randomness w d.
Proof.
  unfold shifted, randomness. destruct (Z.ltb_spec 0 w) as [W|W]; split.
  - intros [(_ & R & c & E)|[H _]]; [|lia]. rewrite E. replace (r + w + c * (2 * w)) with (r + w + c * (2 * w)) by lia. rewrite Z.mod_add by lia.
    rewrite Z.mod_small by lia. lia.
  - intros ->. left. split; [exact W|]. pose proof (Z.mod_pos_bound d (2 * w)). split; [lia|]. exists (d / (2 * w)). pose proof (Z.div_mod d (2 * w)). lia.
  - intros [(H & _)|[_ H]]; lia.
  - intros ->. right. lia.
Qed.
Lemma mem_local_spec es v : (exists k, stamped es v k /\ mm_local (mem_run es) v = k) \/ (unstamped es v /\ mm_local (mem_run es) v = -1000).
Proof.
  induction es as [|e es IH] using rev_ind.
  - right. split; [left; constructor|reflexivity].
  - rewrite mem_run_snoc. destruct e as [it w vs cs|]; cbn [mem_step].
    + assert (L : mm_local (mem_update it w vs cs (mem_run es)) v = fold_left (fun z (vd : nat * Z) => if Nat.eqb v (fst vd) then it + randomness w (snd vd) else z) vs (mm_local (mem_run es) v)).
      { unfold mem_update. cbn [mem_close mm_local]. rewrite <- alter_local. generalize (fold_left (mem_alter it w) vs (mem_run es)) as m1.
        induction cs as [|c cs IHc]; intros m1; cbn [fold_left]; [reflexivity|]. now rewrite IHc. }
      rewrite L. destruct (stamp_fold (fun d => it + randomness w d) v vs (mm_local (mem_run es) v)) as [[H1 H2]|(a & d & b & H1 & H2 & H3)]; cbv zeta in *.
      * rewrite H2. destruct IH as [(k & (es1 & it' & w' & a & d & b & cs' & es2 & S1 & S2 & S3 & S4) & E)|[U E]].
        -- left. exists k. split; [|exact E]. exists es1, it', w', a, d, b, cs', (es2 ++ [MUpdate it w vs cs]).
           split; [rewrite S1, <- app_assoc; reflexivity|]. split; [exact S2|]. split; [|exact S4].
           apply Forall_app. split; [exact S3|]. apply Forall_cons; [exact H1|apply Forall_nil].
        -- right. split; [|exact E]. destruct U as [U|(es1 & es2 & U1 & U2)].
           ++ left. apply Forall_app. split; [exact U|]. apply Forall_cons; [exact H1|apply Forall_nil].
           ++ right. exists es1, (es2 ++ [MUpdate it w vs cs]). split; [rewrite U1, <- app_assoc; reflexivity|].
              apply Forall_app. split; [exact U2|]. apply Forall_cons; [exact H1|apply Forall_nil].
      * left. exists (it + randomness w d). split; [|exact H3]. exists es, it, w, a, d, b, cs, []. rewrite H1.
        split; [reflexivity|]. split; [exact H2|]. split; [apply Forall_nil|]. exists (randomness w d). split; [now apply shifted_iff|reflexivity].
    + right. split; [|reflexivity]. right. exists es, []. split; [reflexivity|apply Forall_nil].
Qed.

(** Stamps are unique: both descriptions are recovered from the stored value. *)
Lemma local_untouched es2 v : untouched v es2 -> forall m, mm_local (fold_left mem_step es2 m) v = mm_local m v.
Proof.
  intros H. induction H as [|e es2 H1 H2 IH]; intros m; cbn [fold_left]; [reflexivity|]. rewrite IH.
  destruct e as [it w vs cs|]; [|contradiction]. cbn [mem_step]. unfold mem_update. cbn [mem_close mm_local].
  assert (Vi : forall m1, mm_local (fold_left mem_violate cs m1) = mm_local m1) by (clear; induction cs as [|c cs IHc]; intros m1; cbn [fold_left]; [reflexivity|]; now rewrite IHc).
  rewrite Vi, alter_local. destruct (stamp_fold (fun d => it + randomness w d) v vs (mm_local m v)) as [[_ E]|(a & d & b & E & _)]; cbv zeta in *; [exact E|].
  exfalso. apply H1. rewrite E, map_app. apply in_app_iff. right. now left.
Qed.
Lemma stamped_local es v k : stamped es v k -> mm_local (mem_run es) v = k.
Proof.
  intros (es1 & it & w & a & d & b & cs & es2 & S1 & S2 & S3 & r & S4 & S5). apply shifted_iff in S4. subst r. unfold mem_run. rewrite S1, fold_left_app. cbn [fold_left].
  rewrite (local_untouched es2 v S3). cbn [mem_step]. unfold mem_update. cbn [mem_close mm_local].
  assert (Vi : forall m1, mm_local (fold_left mem_violate cs m1) = mm_local m1) by (clear; induction cs as [|c cs IHc]; intros m1; cbn [fold_left]; [reflexivity|]; now rewrite IHc).
  rewrite Vi, alter_local, fold_left_app. cbn [fold_left fst snd]. rewrite Nat.eqb_refl, S5.
  generalize (it + randomness w d) as z. clear - S2. induction b as [|[u e] b IH]; intros z; cbn [fold_left fst snd]; [reflexivity|].
  cbn [map fst In] in S2. assert (E : Nat.eqb v u = false) by (apply Nat.eqb_neq; intuition). rewrite E. apply IH. intuition.
Qed.
Lemma unstamped_local es v : unstamped es v -> mm_local (mem_run es) v = -1000.
Proof.
  intros [U|(es1 & es2 & U1 & U2)]; unfold mem_run.
  - now rewrite (local_untouched es v U).
  - rewrite U1, fold_left_app. cbn [fold_left]. rewrite (local_untouched es2 v U2). reflexivity.
Qed.
Lemma released_iff es tenure iteration v : released es tenure iteration v <-> mm_local (mem_run es) v <= iteration - tenure.
Proof.
  unfold released. split.
  - intros [H1 H2]. destruct (mem_local_spec es v) as [(k & S & E)|[U E]]; rewrite E.
    + specialize (H1 k S). lia.
    + specialize (H2 U). lia.
  - intros H. split.
    + intros k S. apply stamped_local in S. lia.
    + intros U. apply unstamped_local in U. lia.
Qed.
Lemma tabu_window es1 it w a v d b cs es2 tenure iteration n : ~ In v (map fst b) -> untouched v es2 -> 0 <= w ->
  let m := mem_run (es1 ++ MUpdate it w (a ++ (v, d) :: b) cs :: es2) in
  (it + tenure + w <= iteration -> forall all, permissible all m (iteration - tenure) [(v, n)] = true) /\
  (iteration < it + tenure - w -> forall all, permissible all m (iteration - tenure) [(v, n)] = false).
Proof.
  intros B U W m. assert (S : stamped (es1 ++ MUpdate it w (a ++ (v, d) :: b) cs :: es2) v (it + randomness w d)).
  { exists es1, it, w, a, d, b, cs, es2. split; [reflexivity|]. split; [exact B|]. split; [exact U|]. exists (randomness w d). split; [now apply shifted_iff|reflexivity]. }
  apply stamped_local in S. fold m in S. assert (R : - w <= randomness w d <= w).
  { unfold randomness. destruct (Z.ltb_spec 0 w) as [L|L]; [|lia]. pose proof (Z.mod_pos_bound d (2 * w)). lia. }
  unfold permissible. cbn [existsb forallb fst]. rewrite S. split; intros H [|].
  - rewrite (proj2 (Z.leb_le _ _)) by lia. reflexivity.
  - rewrite (proj2 (Z.ltb_ge _ _)) by lia. reflexivity.
  - rewrite (proj2 (Z.leb_gt _ _)) by lia. reflexivity.
  - rewrite (proj2 (Z.ltb_lt _ _)) by lia. reflexivity.
Qed.
Lemma permissible_spec es tenure iteration mv :
  (permissible true (mem_run es) (iteration - tenure) mv = true <-> exists v n, In (v, n) mv /\ released es tenure iteration v) /\
  (permissible false (mem_run es) (iteration - tenure) mv = true <-> forall v n, In (v, n) mv -> released es tenure iteration v).
Proof.
  unfold permissible. split.
  - rewrite existsb_exists. split.
    + intros ([v n] & H1 & H2). exists v, n. split; [exact H1|]. apply released_iff. cbn [fst] in H2. apply Z.leb_le in H2. exact H2.
    + intros (v & n & H1 & H2). exists (v, n). split; [exact H1|]. apply released_iff in H2. apply Z.leb_le. exact H2.
  - rewrite forallb_forall. split.
    + intros H v n Hin. specialize (H (v, n) Hin). cbn [fst] in H. apply negb_true_iff, Z.ltb_ge in H. now apply released_iff.
    + intros H [v n] Hin. apply negb_true_iff, Z.ltb_ge. apply released_iff. exact (H v n Hin).
Qed.

(** ** Tenure *)
Definition ten_inv (nmut : Z) (t : tenure) : Prop :=
  0 <= tn_original t <= nmut /\ 0 <= tn_tenure t <= Z.max 1 nmut /\
  (0 < tn_original t -> Z.max 1 (tn_original t / 2) <= tn_tenure t <= nmut).
Lemma tenure_step inc dec nmut g it q t : ten_inv nmut t ->
  exists t', tenure_update inc dec nmut g it q t = Some t' /\ ten_inv nmut t' /\ tn_original t' = tn_original t /\
    (g = true -> tn_original t < tn_tenure t -> tn_tenure t' = tn_original t) /\
    (~ (g = true /\ tn_original t < tn_tenure t) -> Z.abs (tn_tenure t' - tn_tenure t) <= 1).
Proof.
  intros (I1 & I2 & I3). unfold tenure_update.
  assert (Q2 : Z.quot (tn_original t) 2 = tn_original t / 2) by (apply Z.quot_div_nonneg; lia).
  assert (D2 : 0 <= tn_original t / 2 <= tn_original t) by (split; [apply Z.div_pos; lia|apply Z.div_le_upper_bound; lia]).
  assert (D3 : 0 < tn_original t -> Z.max 1 (tn_original t / 2) <= tn_original t) by (intros; pose proof (Z.div_lt (tn_original t) 2); lia).
  destruct (g && (tn_original t <? tn_tenure t)) eqn:Eg.
  - eexists. split; [reflexivity|]. unfold ten_inv. cbn [tn_tenure tn_original]. apply andb_true_iff in Eg as [-> Eg]. apply Z.ltb_lt in Eg.
    repeat split; try lia. 
  - assert (Eg' : ~ (g = true /\ tn_original t < tn_tenure t)).
    { intros [-> H]. apply Z.ltb_lt in H. rewrite H in Eg. discriminate. }
    destruct (Z.eqb_spec (tn_tenure t + 1) 0); [lia|].
    destruct (Z.rem (it - tn_last t) (tn_tenure t + 1) =? 0).
    2:{ eexists. split; [reflexivity|]. split; [exact (conj I1 (conj I2 I3))|]. split; [reflexivity|]. split; [tauto|lia]. }
    destruct (Qlt_le_dec (tn_current t) q).
    + destruct (inc <? tn_inc t + 1); eexists; (split; [reflexivity|]); unfold ten_inv; cbn [tn_tenure tn_original];
        (split; [|split; [reflexivity|split; [tauto|lia]]]); repeat split; lia.
    + destruct (dec <? tn_dec t + 1); eexists; (split; [reflexivity|]); unfold ten_inv; cbn [tn_tenure tn_original]; rewrite ?Q2;
        (split; [|split; [reflexivity|split; [tauto|lia]]]); repeat split; lia.
Qed.
Lemma tenure_setup_inv initial nmut q : 0 <= initial -> 0 <= nmut -> ten_inv nmut (tenure_setup initial nmut q).
Proof.
  intros H1 H2. unfold ten_inv, tenure_setup. cbn [tn_tenure tn_original]. pose proof (Z.div_lt (Z.min initial nmut) 2).
  repeat split; lia.
Qed.
Lemma tenure_run_inv inc dec nmut es : forall t, ten_inv nmut t ->
  exists t', tenure_run inc dec nmut es t = Some t' /\ ten_inv nmut t' /\ tn_original t' = tn_original t.
Proof.
  induction es as [|[[g it] q] es IH]; intros t I; cbn [tenure_run]; [exists t; auto|].
  destruct (tenure_step inc dec nmut g it q t I) as (t' & E & I' & O & _). rewrite E. destruct (IH t' I') as (t2 & E2 & I2 & O2).
  exists t2. split; [exact E2|]. split; [exact I2|]. congruence.
Qed.
Lemma tenure_history inc dec nmut initial q0 es : 0 <= initial -> 0 <= nmut ->
  exists t, tenure_run inc dec nmut es (tenure_setup initial nmut q0) = Some t /\
    0 <= tn_tenure t <= Z.max 1 nmut /\
    (0 < initial -> 0 < nmut -> Z.max 1 (Z.min initial nmut / 2) <= tn_tenure t <= nmut) /\
    (forall g it q, exists t', tenure_run inc dec nmut (es ++ [(g, it, q)]) (tenure_setup initial nmut q0) = Some t' /\
       (g = true -> Z.min initial nmut < tn_tenure t -> tn_tenure t' = Z.min initial nmut) /\
       (~ (g = true /\ Z.min initial nmut < tn_tenure t) -> Z.abs (tn_tenure t' - tn_tenure t) <= 1)).
Proof.
  intros H1 H2. destruct (tenure_run_inv inc dec nmut es _ (tenure_setup_inv initial nmut q0 H1 H2)) as (t & E & I & O).
  cbn [tenure_setup tn_original] in O. exists t. split; [exact E|]. destruct I as (I1 & I2 & I3).
  split; [exact I2|]. split; [intros; rewrite <- O; apply I3; lia|]. intros g it q.
  destruct (tenure_step inc dec nmut g it q t (conj I1 (conj I2 I3))) as (t' & E' & _ & _ & A & B). rewrite O in A, B.
  exists t'. split; [|split; assumption].
  assert (App : forall es' a, tenure_run inc dec nmut (es' ++ [(g, it, q)]) a = match tenure_run inc dec nmut es' a with Some b => tenure_update inc dec nmut g it q b | None => None end).
  { induction es' as [|[[g' it'] q'] es' IH]; intros a; cbn [app tenure_run].
    - destruct (tenure_update inc dec nmut g it q a); reflexivity.
    - destruct (tenure_update inc dec nmut g' it' q' a); [apply IH|reflexivity]. }
  rewrite App, E. exact E'.
Qed.

(** ** Choice of the move *)
Lemma total_raw t : (total_score t == raw t + (if tr_permissible t then 0 else LARGE_50) + (if useless t then LARGE_100 else 0))%Q.
Proof.
  unfold total_score, raw, useless. rewrite negb_orb, andb_assoc. reflexivity.
Qed.
Lemma total_class t u : small t -> small u -> (total_score t <= total_score u)%Q ->
  class t <= class u /\ (class t = class u -> raw t <= raw u)%Q /\ (class t = class u -> total_score t < total_score u -> raw t < raw u)%Q.
Proof.
  unfold small. intros Ht Hu. rewrite !total_raw. apply Qabs_Qlt_condition in Ht as [Ht1 Ht2]. apply Qabs_Qlt_condition in Hu as [Hu1 Hu2].
  unfold class, LARGE_50, LARGE_100.
  assert (L1 : (inject_Z (10 ^ 50) == 10 * inject_Z (10 ^ 49))%Q) by reflexivity.
  assert (L2 : (0 < inject_Z (10 ^ 49))%Q) by reflexivity.
  assert (L3 : (100 * inject_Z (10 ^ 49) < inject_Z (10 ^ 100))%Q) by reflexivity.
  set (s := inject_Z (10 ^ 49)) in *. set (m := inject_Z (10 ^ 50)) in *. set (b := inject_Z (10 ^ 100)) in *. clearbody s m b.
  set (p := raw t) in *. set (q := raw u) in *. clearbody p q.
  destruct (tr_permissible t), (tr_permissible u), (useless t), (useless u); intros H;
    try (exfalso; lra); (split; [lia|]; split; intros; try lia; lra).
Qed.
Lemma improves_beats inc t : improves (sc_global_aug (tr_score t)) inc = true <-> beats inc t.
Proof. unfold improves, beats. destruct inc as [q|]; [|tauto]. destruct (Qlt_le_dec _ q) as [L|L]; split; try tauto; try discriminate. intros H. exfalso. lra. Qed.
Lemma select_move_spec (ignore : bool) inc ts : ts <> [] -> (forall t, In t ts -> small t) ->
  exists i t asp, select_move ignore inc ts = Some (i, asp) /\ nth_error ts i = Some t /\
  (((ignore = false \/ forall u, In u ts -> ~ beats inc u) /\ asp = false /\
    (forall u, In u ts -> class t <= class u) /\
    (forall u, In u ts -> class u = class t -> raw t <= raw u)%Q /\
    (forall k u, (k < i)%nat -> nth_error ts k = Some u -> class u = class t -> raw t < raw u)%Q) \/
   (ignore = true /\ beats inc t /\ asp = negb (tr_permissible t) /\
    (forall u, In u ts -> sc_global_aug (tr_score t) <= sc_global_aug (tr_score u))%Q)).
Proof.
  intros N B. unfold select_move. destruct (argmin_index_total _ total_score ts N) as (i & Ei & t & Hi & H1 & H2). rewrite Ei.
  assert (It : In t ts) by (eapply nth_error_In; exact Hi).
  assert (First : (forall u, In u ts -> class t <= class u) /\
    (forall u, In u ts -> class u = class t -> raw t <= raw u)%Q /\
    (forall k u, (k < i)%nat -> nth_error ts k = Some u -> class u = class t -> raw t < raw u)%Q).
  { split; [|split].
    - intros u Hu. apply In_nth_error in Hu as Hk. destruct Hk as [k Hk]. apply (total_class t u (B t It) (B u Hu) (H1 k u Hk)).
    - intros u Hu E. apply In_nth_error in Hu as Hk. destruct Hk as [k Hk]. apply (total_class t u (B t It) (B u Hu) (H1 k u Hk)). congruence.
    - intros k u Hlt Hk E. assert (Hu : In u ts) by (eapply nth_error_In; exact Hk).
      apply (total_class t u (B t It) (B u Hu) (H1 k u Hk)); [congruence|]. exact (H2 k u Hlt Hk). }
  destruct ignore; cbn [negb].
  2:{ exists i, t, false. split; [reflexivity|]. split; [exact Hi|]. left. split; [now left|]. split; [reflexivity|exact First]. }
  destruct (argmin_index_total _ (fun t => sc_global_aug (tr_score t)) ts N) as (j & Ej & u & Hj & G1 & _). rewrite Ej, Hj.
  destruct (improves (sc_global_aug (tr_score u)) inc) eqn:Im.
  - exists j, u, (negb (tr_permissible u)). split; [reflexivity|]. split; [exact Hj|]. right. split; [reflexivity|].
    split; [now apply improves_beats|]. split; [reflexivity|]. intros w Hw. apply In_nth_error in Hw as [k Hk]. exact (G1 k w Hk).
  - exists i, t, false. split; [reflexivity|]. split; [exact Hi|]. left. split; [|split; [reflexivity|exact First]]. right.
    intros w Hw Bw. apply In_nth_error in Hw as [k Hk]. specialize (G1 k w Hk). cbv beta in G1.
    assert (Bu : beats inc u) by (unfold beats in *; destruct inc; [lra|exact Bw]). apply improves_beats in Bu. congruence.
Qed.
