(** Proofs for C23 and C24. *)
From Coq Require Import List ZArith QArith Bool Arith Lia.
From Coq Require Import Relations.Relation_Operators ListDec.
From Verif Require Import ExprModel BinMatModel BinMatSpec.
Import ListNotations.
Local Open Scope nat_scope.

(** ** Sums over GF(2) *)
Lemma xsum_ext n f g : (forall k, k < n -> f k = g k) -> xsum n f = xsum n g.
Proof. induction n as [|n IH]; intros H; cbn; [reflexivity|]. rewrite IH, H by (intros; auto with arith). reflexivity. Qed.
Lemma xsum_false n : xsum n (fun _ => false) = false.
Proof. induction n; cbn; [reflexivity|]. now rewrite IHn. Qed.
Lemma xsum_zero n f : (forall k, k < n -> f k = false) -> xsum n f = false.
Proof. intros H. rewrite (xsum_ext n f (fun _ => false)) by exact H. apply xsum_false. Qed.
Lemma xsum_xor n f g : xsum n (fun k => xorb (f k) (g k)) = xorb (xsum n f) (xsum n g).
Proof. induction n as [|n IH]; cbn; [reflexivity|]. rewrite IH. destruct (xsum n f), (xsum n g), (f n), (g n); reflexivity. Qed.
Lemma xsum_and_l n b f : xsum n (fun k => b && f k) = b && xsum n f.
Proof. induction n as [|n IH]; cbn; [now destruct b|]. rewrite IH. destruct b, (xsum n f), (f n); reflexivity. Qed.
Lemma xsum_and_r n b f : xsum n (fun k => f k && b) = xsum n f && b.
Proof. induction n as [|n IH]; cbn; [reflexivity|]. rewrite IH. destruct b, (xsum n f), (f n); reflexivity. Qed.
Lemma xsum_swap n m (f : nat -> nat -> bool) :
  xsum n (fun i => xsum m (fun j => f i j)) = xsum m (fun j => xsum n (fun i => f i j)).
Proof.
  induction n as [|n IH]; cbn; [now rewrite xsum_false|]. rewrite IH. now rewrite <- xsum_xor.
Qed.
Lemma xsum_delta n i f : i < n -> xsum n (fun k => (i =? k) && f k) = f i.
Proof.
  induction n as [|n IH]; intros H; [lia|]. cbn. destruct (Nat.eqb_spec i n) as [->|N].
  - cbn [andb]. rewrite xsum_zero; [now destruct (f n)|]. intros k Hk. destruct (Nat.eqb_spec n k); [lia|reflexivity].
  - rewrite IH by lia. cbn. now destruct (f i).
Qed.
Lemma xsum_delta_r n j f : j < n -> xsum n (fun k => f k && (k =? j)) = f j.
Proof. intros H. rewrite <- (xsum_delta n j f H). apply xsum_ext. intros k _. rewrite Nat.eqb_sym. apply andb_comm. Qed.

(** ** Matrices *)
Definition meq (n : nat) (A B : mat) : Prop := forall i j, i < n -> j < n -> A i j = B i j.
Lemma meq_sym n A B : meq n A B -> meq n B A. Proof. intros H i j Hi Hj. symmetry. now apply H. Qed.
Lemma meq_trans n A B C : meq n A B -> meq n B C -> meq n A C.
Proof. intros H K i j Hi Hj. rewrite H by assumption. now apply K. Qed.
Lemma dotm_comp n A A' B B' : meq n A A' -> meq n B B' -> meq n (dotm n A B) (dotm n A' B').
Proof. intros H K i j Hi Hj. apply xsum_ext. intros k Hk. rewrite H, K by assumption. reflexivity. Qed.
Lemma dotm_assoc n A B C : meq n (dotm n (dotm n A B) C) (dotm n A (dotm n B C)).
Proof.
  intros i j Hi Hj. unfold dotm.
  rewrite (xsum_ext n _ (fun k => xsum n (fun l => (A i l && B l k) && C k j))) by (intros; now rewrite xsum_and_r).
  rewrite xsum_swap. apply xsum_ext. intros l Hl. rewrite <- xsum_and_l. apply xsum_ext. intros k Hk. now rewrite andb_assoc.
Qed.
Lemma dotm_id_l n A : meq n (dotm n ident A) A.
Proof. intros i j Hi Hj. unfold dotm, ident. now apply (xsum_delta n i (fun k => A k j)). Qed.
Lemma dotm_id_r n A : meq n (dotm n A ident) A.
Proof. intros i j Hi Hj. unfold dotm, ident. now apply (xsum_delta_r n j (fun k => A i k)). Qed.

(** Row operations recorded in B: A = B * M, and B is invertible. *)
Definition rowops (n : nat) (M A B : mat) : Prop :=
  meq n (dotm n B M) A /\ exists C, meq n (dotm n C B) ident /\ meq n (dotm n B C) ident.

Lemma rowops_step n M A B (op : mat -> mat) E :
  (forall X, meq n (op X) (dotm n E X)) -> meq n (dotm n E E) ident ->
  rowops n M A B -> rowops n M (op A) (op B).
Proof.
  intros HE EE (H & C & H1 & H2). split.
  - eapply meq_trans; [apply dotm_comp; [apply HE|intros ? ? ? ?; reflexivity]|].
    eapply meq_trans; [apply dotm_assoc|]. eapply meq_trans; [|apply meq_sym, HE].
    apply dotm_comp; [intros ? ? ? ?; reflexivity|exact H].
  - exists (dotm n C E). split.
    + eapply meq_trans; [apply dotm_comp; [intros ? ? ? ?; reflexivity|apply HE]|].
      eapply meq_trans; [apply dotm_assoc|].
      eapply meq_trans; [apply dotm_comp; [intros ? ? ? ?; reflexivity|apply meq_sym, dotm_assoc]|].
      eapply meq_trans; [apply dotm_comp; [intros ? ? ? ?; reflexivity|apply dotm_comp; [exact EE|intros ? ? ? ?; reflexivity]]|].
      eapply meq_trans; [apply dotm_comp; [intros ? ? ? ?; reflexivity|apply dotm_id_l]|]. exact H1.
    + eapply meq_trans; [apply dotm_comp; [apply HE|intros ? ? ? ?; reflexivity]|].
      eapply meq_trans; [apply dotm_assoc|].
      eapply meq_trans; [apply dotm_comp; [intros ? ? ? ?; reflexivity|apply meq_sym, dotm_assoc]|].
      eapply meq_trans; [apply dotm_comp; [intros ? ? ? ?; reflexivity|apply dotm_comp; [exact H2|intros ? ? ? ?; reflexivity]]|].
      eapply meq_trans; [apply dotm_comp; [intros ? ? ? ?; reflexivity|apply dotm_id_l]|]. exact EE.
Qed.

Lemma swap_op n a b : a < n -> b < n -> forall X, meq n (swap_rows X a b) (dotm n (swap_rows ident a b) X).
Proof.
  intros Ha Hb X i j Hi Hj. unfold swap_rows, dotm, ident.
  destruct (i =? a); [|destruct (i =? b)]; symmetry.
  - now apply (xsum_delta n b (fun k => X k j)).
  - now apply (xsum_delta n a (fun k => X k j)).
  - now apply (xsum_delta n i (fun k => X k j)).
Qed.
Lemma swap_invol n a b : a < n -> b < n -> meq n (dotm n (swap_rows ident a b) (swap_rows ident a b)) ident.
Proof.
  intros Ha Hb. eapply meq_trans; [apply meq_sym, swap_op; assumption|]. intros i j Hi Hj. unfold swap_rows.
  destruct (Nat.eqb_spec i a) as [->|N1].
  - rewrite Nat.eqb_refl. destruct (Nat.eqb_spec b a); [subst|]; reflexivity.
  - destruct (Nat.eqb_spec i b) as [->|N2]; [|reflexivity]. now rewrite Nat.eqb_refl.
Qed.
Lemma add_op n s t : s < n -> t < n -> forall X, meq n (add_row X s t) (dotm n (add_row ident s t) X).
Proof.
  intros Hs Ht X i j Hi Hj. unfold add_row, dotm, ident. destruct (Nat.eqb_spec i t) as [->|N]; symmetry.
  - rewrite (xsum_ext n _ (fun k => xorb ((t =? k) && X k j) ((s =? k) && X k j))) by
      (intros k _; destruct (t =? k), (s =? k), (X k j); reflexivity).
    rewrite xsum_xor, (xsum_delta n t (fun k => X k j) Ht), (xsum_delta n s (fun k => X k j) Hs). reflexivity.
  - now apply (xsum_delta n i (fun k => X k j)).
Qed.
Lemma add_invol n s t : s < n -> t < n -> s <> t -> meq n (dotm n (add_row ident s t) (add_row ident s t)) ident.
Proof.
  intros Hs Ht N. eapply meq_trans; [apply meq_sym, add_op; assumption|]. intros i j Hi Hj. unfold add_row.
  destruct (Nat.eqb_spec i t) as [->|N1]; [|reflexivity]. rewrite Nat.eqb_refl.
  destruct (Nat.eqb_spec s t); [contradiction|]. now destruct (ident t j), (ident s j).
Qed.
Lemma rowops_swap n M A B a b : a < n -> b < n -> rowops n M A B -> rowops n M (swap_rows A a b) (swap_rows B a b).
Proof. intros Ha Hb. apply (rowops_step n M A B (fun X => swap_rows X a b) (swap_rows ident a b)); [now apply swap_op|now apply swap_invol]. Qed.
Lemma rowops_add n M A B s t : s < n -> t < n -> s <> t -> rowops n M A B -> rowops n M (add_row A s t) (add_row B s t).
Proof. intros Hs Ht N. apply (rowops_step n M A B (fun X => add_row X s t) (add_row ident s t)); [now apply add_op|now apply add_invol]. Qed.
Lemma rowops_start n M : rowops n M M ident.
Proof. split; [apply dotm_id_l|]. exists ident. split; apply dotm_id_l. Qed.

(** ** Forward elimination *)

(** Clearing below: rows up to the pivot row are untouched, every later row of
    the range gets column j cleared and keeps every column where the pivot row is 0. *)
Lemma clear_rows n M s j : forall (rows : list nat) (A B : mat),
  NoDup rows -> (forall i, In i rows -> i < n /\ i <> s) -> s < n -> A s j = true -> rowops n M A B ->
  let AB := fold_left (fun (AB : mat * mat) (i : nat) =>
    if fst AB i j then (add_row (fst AB) s i, add_row (snd AB) s i) else AB) rows (A, B) in
  rowops n M (fst AB) (snd AB) /\
  (forall i k, ~ In i rows -> fst AB i k = A i k) /\
  (forall i, In i rows -> fst AB i j = false) /\
  (forall i k, A s k = false -> fst AB i k = A i k).
Proof.
  induction rows as [|r rows IH]; intros A B ND R Hs Hp HR; cbn [fold_left].
  - cbn. split; [exact HR|]. split; [auto|]. split; [intros i []|auto].
  - inversion ND as [|? ? Nr ND']; subst. destruct (R r (or_introl eq_refl)) as [Hr Nrs].
    cbv zeta. set (s1 := if fst (A, B) r j then (add_row (fst (A, B)) s r, add_row (snd (A, B)) s r) else (A, B)).
    assert (P : rowops n M (fst s1) (snd s1) /\ (forall i k, i <> r -> fst s1 i k = A i k) /\ fst s1 r j = false /\
                (forall i k, A s k = false -> fst s1 i k = A i k)).
    { unfold s1. cbn [fst snd]. destruct (A r j) eqn:E; cbn [fst snd].
      - split; [apply rowops_add; auto|]. unfold add_row. split; [intros i k Ni; destruct (Nat.eqb_spec i r); [contradiction|reflexivity]|].
        split; [rewrite Nat.eqb_refl, E, Hp; reflexivity|]. intros i k Z. destruct (Nat.eqb_spec i r) as [->|]; [|reflexivity]. rewrite Z. now destruct (A r k).
      - split; [exact HR|]. auto. }
    clearbody s1. destruct s1 as [A1 B1]. cbn [fst snd] in P. destruct P as (P1 & P2 & P3 & P4).
    specialize (IH A1 B1 ND' (fun i Hi => R i (or_intror Hi)) Hs).
    rewrite (P2 s j) in IH by auto. specialize (IH Hp P1). cbv zeta in IH. destruct IH as (Q1 & Q2 & Q3 & Q4).
    split; [exact Q1|]. split; [|split].
    + intros i k Ni. rewrite Q2 by (intros Hi; apply Ni; now right). apply P2. intros ->. apply Ni. now left.
    + intros i [->|Hi]; [rewrite Q2 by assumption; exact P3|now apply Q3].
    + intros i k Z. rewrite Q4 by (rewrite P2 by auto; exact Z). now apply P4.
Qed.

(** State after the columns below j. *)
Definition fw_inv (n : nat) (M : mat) (j : nat) (s : mat * mat * nat) : Prop :=
  let '(A, B, r) := s in
  rowops n M A B /\ r <= j /\ r <= n /\
  (forall i c, r <= i -> i < n -> c < j -> A i c = false) /\
  (exists p : nat -> nat, forall t, t < r -> p t < j /\ A t (p t) = true /\ forall i, t < i -> i < n -> A i (p t) = false) /\
  (r = j -> forall t, t < r -> A t t = true /\ forall i, t < i -> i < n -> A i t = false).

Lemma find_seq f a m i : find f (seq a m) = Some i -> f i = true /\ a <= i < a + m.
Proof. intros H. apply find_some in H. destruct H as [H1 H2]. apply in_seq in H1. auto. Qed.

Lemma fw_step n M j s : j < n -> fw_inv n M j s -> fw_inv n M (S j) (forward_column n s j).
Proof.
  destruct s as [[A B] r]. intros Hj (HR & Hrj & Hrn & Hz & (p & Hp) & Hd). cbn [forward_column].
  destruct (pivot_row n A r j) as [row|] eqn:E.
  - unfold pivot_row in E. apply find_seq in E. destruct E as [Er Hrow].
    assert (Hr : r < n) by lia. assert (Hrow' : row < n) by lia.
    set (AB := if row =? r then (A, B) else (swap_rows A row r, swap_rows B row r)).
    assert (P : rowops n M (fst AB) (snd AB) /\ fst AB r j = true /\ (forall i k, i < r -> fst AB i k = A i k) /\
                (forall i c, r <= i -> i < n -> c < j -> fst AB i c = false) /\
                (forall i t, r <= i -> i < n -> t < r -> fst AB i (p t) = false) ).
    { unfold AB. destruct (Nat.eqb_spec row r) as [->|N]; cbn [fst snd].
      - split; [exact HR|]. split; [exact Er|]. split; [auto|]. split; [auto|].
        intros i t Hi Hi' Ht. destruct (Hp t Ht) as (_ & _ & H). apply H; lia.
      - split; [now apply rowops_swap|]. unfold swap_rows.
        split; [destruct (Nat.eqb_spec r row); [congruence|]; now rewrite Nat.eqb_refl|].
        split; [intros i k Hi; destruct (Nat.eqb_spec i row), (Nat.eqb_spec i r); try lia; reflexivity|].
        split; intros i; [intros c|intros t]; intros Hi Hi' Hc.
        + destruct (i =? row); [now apply Hz|]. destruct (i =? r); apply Hz; lia.
        + destruct (Hp t Hc) as (_ & _ & H). destruct (i =? row); [apply H; lia|]. destruct (i =? r); apply H; lia. }
    clearbody AB. destruct AB as [A1 B1]. cbn [fst snd] in P. destruct P as (P1 & P2 & P3 & P4 & P5).
    unfold clear_below.
    pose proof (clear_rows n M r j (seq (S r) (n - S r)) A1 B1 (seq_NoDup _ _)) as C.
    specialize (C (fun i Hi => ltac:(apply in_seq in Hi; lia)) Hr P2 P1). cbv zeta in C.
    destruct (fold_left _ (seq (S r) (n - S r)) (A1, B1)) as [A2 B2]. cbn [fst snd] in *.
    destruct C as (C1 & C2 & C3 & C4).
    assert (K : forall i k, i <= r -> A2 i k = A1 i k) by (intros i k Hi; apply C2; rewrite in_seq; lia).
    split; [exact C1|]. split; [lia|]. split; [lia|]. split; [|split].
    + intros i c Hi Hi' Hc. destruct (Nat.eq_dec c j) as [->|].
      * apply C3. apply in_seq. lia.
      * rewrite C4 by (apply P4; lia). apply P4; lia.
    + exists (fun t => if t =? r then j else p t). intros t Ht. destruct (Nat.eqb_spec t r) as [->|N].
      * split; [lia|]. split; [rewrite K by lia; exact P2|]. intros i Hi Hi'. apply C3. apply in_seq. lia.
      * assert (Ht' : t < r) by lia. destruct (Hp t Ht') as (H1 & H2 & H3). split; [lia|].
        split; [rewrite K, P3 by lia; exact H2|]. intros i Hi Hi'.
        rewrite C4 by (apply P5; lia). destruct (le_lt_dec r i); [apply P5; lia|]. rewrite P3 by lia. apply H3; lia.
    + intros Ej t Ht. assert (Ejr : r = j) by lia. destruct (Nat.eq_dec t r) as [->|N].
      * rewrite Ejr in *. split; [rewrite K by lia; exact P2|]. intros i Hi Hi'. apply C3. apply in_seq. lia.
      * assert (Ht' : t < r) by lia. destruct (Hd Ejr t Ht') as (H2 & H3).
        split; [rewrite K, P3 by lia; exact H2|]. intros i Hi Hi'.
        rewrite C4 by (apply P4; lia). destruct (le_lt_dec r i); [apply P4; lia|]. rewrite P3 by lia. apply H3; lia.
  - unfold pivot_row in E. split; [exact HR|]. split; [lia|]. split; [exact Hrn|]. split; [|split].
    + intros i c Hi Hi' Hc. destruct (Nat.eq_dec c j) as [->|]; [|apply Hz; lia].
      apply (find_none _ _ E). apply in_seq. lia.
    + exists p. intros t Ht. destruct (Hp t Ht) as (H1 & H2 & H3). split; [lia|]. auto.
    + intros. lia.
Qed.

Lemma fw_run n M : fw_inv n M n (forward n M).
Proof.
  unfold forward. assert (H : forall m, m <= n -> fw_inv n M m (fold_left (forward_column n) (seq 0 m) (M, ident, 0))).
  { induction m as [|m IH]; intros Hm.
    - cbn. split; [apply rowops_start|]. split; [lia|]. split; [lia|]. split; [intros; lia|]. split; [exists (fun t => t)|]; intros; lia.
    - rewrite seq_S, fold_left_app. cbn [fold_left plus]. apply fw_step; [lia|]. apply IH. lia. }
  now apply H.
Qed.

(** ** Back substitution *)
Definition unit_upper (n : nat) (A : mat) : Prop :=
  forall i c, i < n -> c < n -> (c < i -> A i c = false) /\ (c = i -> A i c = true).
Definition cols_done (n : nat) (A : mat) (j : nat) : Prop :=
  forall i c, i < n -> c < n -> j <= c -> A i c = (i =? c).

Lemma bw_step n M A B j : j < n -> rowops n M A B -> unit_upper n A -> cols_done n A (S j) ->
  let AB := clear_above (A, B) j in rowops n M (fst AB) (snd AB) /\ unit_upper n (fst AB) /\ cols_done n (fst AB) j.
Proof.
  intros Hj HR HU HD. cbv zeta. unfold clear_above.
  assert (Hjj : A j j = true) by (apply HU; auto).
  pose proof (clear_rows n M j j (rev (seq 0 j)) A B) as C.
  specialize (C (NoDup_rev (seq_NoDup j 0))).
  specialize (C (fun i Hi => ltac:(apply in_rev, in_seq in Hi; lia)) Hj Hjj HR). cbv zeta in C.
  destruct (fold_left _ (rev (seq 0 j)) (A, B)) as [A2 B2]. cbn [fst snd] in *.
  destruct C as (C1 & C2 & C3 & C4). split; [exact C1|].
  assert (Row : forall k, k < n -> A j k = (j =? k)).
  { intros k Hk. destruct (lt_eq_lt_dec k j) as [[L | ->]|L].
    - destruct (Nat.eqb_spec j k); [lia|]. now apply HU.
    - now rewrite Nat.eqb_refl.
    - apply HD; lia. }
  assert (Same : forall i k, i < n -> k < n -> k <> j -> A2 i k = A i k).
  { intros i k Hi Hk N. apply C4. rewrite Row by assumption. destruct (Nat.eqb_spec j k); [congruence|reflexivity]. }
  split.
  - intros i c Hi Hc. destruct (Nat.eq_dec c j) as [->|N].
    + split; intros L; rewrite C2 by (rewrite <- in_rev, in_seq; lia); apply HU; auto.
    + rewrite Same by assumption. now apply HU.
  - intros i c Hi Hc L. destruct (Nat.eq_dec c j) as [->|N].
    + destruct (lt_dec i j) as [Li|Li].
      * rewrite C3 by (rewrite <- in_rev, in_seq; lia). destruct (Nat.eqb_spec i j); [lia|reflexivity].
      * rewrite C2 by (rewrite <- in_rev, in_seq; lia). destruct (Nat.eqb_spec i j) as [->|]; [exact Hjj|]. apply HU; lia.
    + rewrite Same by assumption. apply HD; lia.
Qed.

Lemma bw_run n M A B : rowops n M A B -> unit_upper n A ->
  let AB := backward n (A, B) in rowops n M (fst AB) (snd AB) /\ meq n (fst AB) ident.
Proof.
  intros HR HU. cbv zeta. unfold backward.
  assert (H : forall m A B, m < n -> rowops n M A B -> unit_upper n A -> cols_done n A (S m) ->
    let AB := fold_left clear_above (rev (seq 1 m)) (A, B) in
    rowops n M (fst AB) (snd AB) /\ unit_upper n (fst AB) /\ cols_done n (fst AB) 1).
  { induction m as [|m IH]; intros A1 B1 Hm R1 U1 D1; [cbn; auto|].
    rewrite seq_S, rev_app_distr. cbn [rev app fold_left plus].
    destruct (bw_step n M A1 B1 (S m) Hm R1 U1 D1) as (R2 & U2 & D2). destruct (clear_above (A1, B1) (S m)) as [A2 B2].
    apply (IH A2 B2); [lia|exact R2|exact U2|exact D2]. }
  destruct n as [|n].
  - cbn. split; [exact HR|]. intros i j Hi. lia.
  - specialize (H n A B (Nat.lt_succ_diag_r n) HR HU).
    rewrite Nat.sub_succ, Nat.sub_0_r in *.
    destruct H as (R2 & U2 & D2).
    { intros i c Hi Hc L. lia. }
    split; [exact R2|]. intros i c Hi Hc. destruct c as [|c].
    + destruct i as [|i]; [now apply U2|]. change (ident (S i) 0) with false. apply U2; lia.
    + apply D2; lia.
Qed.

(** ** Results *)
Lemma span_of_rowops n M A B : rowops n M A B -> forall v, in_span n n M v <-> in_span n n A v.
Proof.
  intros (H & C & H1 & H2) v. unfold in_span, combination. split; intros [c Hc].
  - exists (fun t => xsum n (fun s => c s && C s t)). intros j Hj. rewrite (Hc j Hj).
    (* M = C A *)
    assert (HM : forall s, s < n -> M s j = xsum n (fun t => C s t && A t j)).
    { intros s Hs. transitivity (dotm n (dotm n C B) M s j).
      - rewrite (dotm_comp n _ ident M M H1 (fun _ _ _ _ => eq_refl) s j Hs Hj). symmetry. now apply dotm_id_l.
      - rewrite (dotm_assoc n C B M s j Hs Hj). apply xsum_ext. intros t Ht. now rewrite (H t j Ht Hj). }
    rewrite (xsum_ext n _ (fun s => xsum n (fun t => c s && (C s t && A t j)))) by (intros s Hs; rewrite HM, <- xsum_and_l by assumption; reflexivity).
    rewrite xsum_swap. apply xsum_ext. intros t Ht. rewrite <- xsum_and_r. apply xsum_ext. intros s Hs. apply andb_assoc.
  - exists (fun t => xsum n (fun s => c s && B s t)). intros j Hj. rewrite (Hc j Hj).
    rewrite (xsum_ext n _ (fun s => xsum n (fun t => c s && (B s t && M t j)))).
    + rewrite xsum_swap. apply xsum_ext. intros t Ht. rewrite <- xsum_and_r. apply xsum_ext. intros s Hs. apply andb_assoc.
    + intros s Hs. rewrite xsum_and_l. f_equal. symmetry. now apply (H s j).
Qed.

Lemma xsum_cut n r f : r <= n -> (forall k, r <= k -> k < n -> f k = false) -> xsum n f = xsum r f.
Proof.
  induction n as [|n IH]; intros Hr Hz; [now replace r with 0 by lia|].
  destruct (Nat.eq_dec r (S n)) as [->|N]; [reflexivity|]. cbn. rewrite (Hz n) by lia. rewrite xorb_false_r. apply IH; [lia|]. intros; apply Hz; lia.
Qed.

Lemma rank_correct n M : has_rank n M (snd (inverse_and_rank n M)).
Proof.
  unfold inverse_and_rank. pose proof (fw_run n M) as F. destruct (forward n M) as [[A B] r].
  assert (G : has_rank n M r).
  { destruct F as (HR & Hrj & Hrn & Hz & (p & Hp) & Hd).
    exists A. split.
    - intros c H t Ht. destruct (c t) eqn:E; [|reflexivity]. exfalso.
      assert (L : exists t0, t0 < r /\ c t0 = true /\ forall s, s < t0 -> c s = false).
      { clear - Ht E. revert Ht E. induction t as [t IH] using lt_wf_ind. intros Ht E.
        destruct (existsb c (seq 0 t)) eqn:X.
        - apply existsb_exists in X. destruct X as (s & Hs & Cs). apply in_seq in Hs. apply (IH s); [lia|lia|exact Cs].
        - exists t. split; [exact Ht|]. split; [exact E|]. intros s Hs. destruct (c s) eqn:Es; [|reflexivity].
          enough (existsb c (seq 0 t) = true) by congruence. apply existsb_exists. exists s. split; [apply in_seq; lia|exact Es]. }
      destruct L as (t0 & Ht0 & C0 & Lt). destruct (Hp t0 Ht0) as (P1 & P2 & P3).
      specialize (H (p t0)). unfold combination in H. rewrite (xsum_ext r _ (fun s => (t0 =? s) && true)) in H.
      + rewrite (xsum_delta r t0 (fun _ => true) Ht0) in H. specialize (H ltac:(lia)). discriminate.
      + intros s Hs. destruct (Nat.eqb_spec t0 s) as [<-|N]; [now rewrite C0, P2|].
        destruct (lt_dec s t0) as [L|L]; [now rewrite (Lt s L)|]. rewrite (P3 s) by lia. apply andb_false_r.
    - intros v. rewrite (span_of_rowops n M A B HR v). unfold in_span, combination. split; intros [c Hc].
      + exists c. intros j Hj. rewrite (Hc j Hj). apply xsum_cut; [exact Hrn|]. intros k H1 H2. rewrite (Hz k j) by assumption. apply andb_false_r.
      + exists c. intros j Hj. rewrite (Hc j Hj). symmetry. apply xsum_cut; [exact Hrn|]. intros k H1 H2. rewrite (Hz k j) by assumption. apply andb_false_r. }
  destruct (r =? n); exact G.
Qed.

Lemma inverse_correct n M : snd (inverse_and_rank n M) = n ->
  product_is_identity n (fst (inverse_and_rank n M)) M /\ product_is_identity n M (fst (inverse_and_rank n M)).
Proof.
  unfold inverse_and_rank. pose proof (fw_run n M) as F. destruct (forward n M) as [[A B] r].
  destruct (Nat.eqb_spec r n) as [->|N]; cbn [fst snd]; [|intros; contradiction].
  intros _. destruct F as (HR & _ & _ & _ & _ & Hd).
  destruct (bw_run n M A B HR) as (R2 & I2).
  { intros i c Hi Hc. specialize (Hd eq_refl). split; [|intros ->; now apply Hd]. intros L. now apply (Hd c Hc). }
  destruct (backward n (A, B)) as [A2 B2]. cbn [fst snd] in *. destruct R2 as (H & C & H1 & H2).
  assert (BM : meq n (dotm n B2 M) ident) by (eapply meq_trans; eassumption).
  assert (MC : meq n M C).
  { eapply meq_trans; [apply meq_sym, dotm_id_l|]. eapply meq_trans; [apply dotm_comp; [apply meq_sym, H1|intros ? ? ? ?; reflexivity]|].
    eapply meq_trans; [apply dotm_assoc|]. eapply meq_trans; [apply dotm_comp; [intros ? ? ? ?; reflexivity|exact BM]|]. apply dotm_id_r. }
  split; [exact BM|]. 
  assert (MB : meq n (dotm n M B2) ident).
  { eapply meq_trans; [apply dotm_comp; [exact MC|intros ? ? ? ?; reflexivity]|exact H1]. }
  exact MB.
Qed.

(** A matrix of lower rank has no inverse. *)
Lemma singular_no_inverse n M : snd (inverse_and_rank n M) <> n -> ~ exists X, product_is_identity n M X.
Proof.
  unfold inverse_and_rank. pose proof (fw_run n M) as F. destruct (forward n M) as [[A B] r].
  destruct (Nat.eqb_spec r n) as [->|N]; cbn [fst snd]; [intros; contradiction|].
  intros _ [X HX]. destruct F as (HR & _ & Hrn & Hz & _ & _). destruct HR as (H & C & H1 & H2).
  assert (Hlt : r < n) by lia.
  (* row r of A is zero, so row r of B is zero, against B * C = I *)
  assert (BX : forall j, j < n -> B r j = false).
  { intros j Hj. transitivity (dotm n (dotm n B M) X r j).
    - rewrite (dotm_assoc n B M X r j Hlt Hj).
      rewrite (dotm_comp n B B (dotm n M X) ident (fun _ _ _ _ => eq_refl) HX r j Hlt Hj). symmetry. now apply dotm_id_r.
    - rewrite (dotm_comp n (dotm n B M) A X X H (fun _ _ _ _ => eq_refl) r j Hlt Hj).
      apply xsum_zero. intros k Hk. rewrite (Hz r k) by lia. reflexivity. }
  specialize (H2 r r Hlt Hlt). unfold dotm, ident in H2. rewrite Nat.eqb_refl in H2.
  rewrite xsum_zero in H2; [discriminate|]. intros k Hk. now rewrite BX.
Qed.

Lemma inverse_iff n M : snd (inverse_and_rank n M) = n <-> exists X, product_is_identity n M X.
Proof.
  split.
  - intros H. exists (fst (inverse_and_rank n M)). now apply inverse_correct.
  - intros H. destruct (Nat.eq_dec (snd (inverse_and_rank n M)) n) as [E|N]; [exact E|]. exfalso. now apply (singular_no_inverse n M N).
Qed.
