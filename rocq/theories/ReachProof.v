(** Proofs for C78. *)
From Coq Require Import List NArith ZArith QArith Bool Arith Lia.
From Verif Require Import ExprModel ExprSpec ConstraintModel VariableModel TypeModel TypeSpec TypeSpec2 PresolveModel PresolveSpec DuplicateModel DependentModel DependentSpec
  SelectionModel SelectionSpec PrepareModel PrepareSpec EvalModel EvalSpec EvalSpec2 MoveModel MoveSpec TabuModel LoopModel LoopSpec LocalModel LocalSpec WholeModel WholeSpec OfferModel OfferSpec ReachSpec.
From Verif Require Import DuplicateProof2 EvalProof EvalProof2 EvalProof3 TypeProof4 MoveProof MoveProof2 MoveProof3 SelectionProof3 PrepareProof5 WholeProof WholeProof2 OfferProof OfferProof3 OfferProof4.
Import ListNotations.
Local Open Scope nat_scope.

Lemma concat_options_has {A} (l : list (option (list A))) : forall r a m, concat_options l = Some r -> In (Some a) l -> In m a -> In m r.
Proof.
  induction l as [|o l IH]; intros r a m E I J; [destruct I|]. cbn [concat_options] in E. destruct o as [b|]; [|discriminate].
  destruct (concat_options l) as [q|] eqn:Q; [|discriminate]. injection E as <-. apply in_app_iff. destruct I as [I|I]; [injection I as ->; left; exact J|right; exact (IH q a m eq_refl I J)].
Qed.
Lemma shown_has make m f : forall ms ids, length ids = length ms -> In (m, f) ms -> f <> 0%Z -> exists id, In (make id m) (shown make ids ms).
Proof.
  induction ms as [|q ms IH]; intros [|i ids] L I N; try discriminate; [destruct I|]. cbn [length] in L. unfold shown. cbn [combine flat_map fst snd]. destruct I as [->|I].
  - exists i. cbn [snd fst]. replace (f =? 0)%Z with false by lia. left. reflexivity.
  - destruct (IH ids ltac:(lia) I N) as [id J]. exists id. apply in_app_iff. right. exact J.
Qed.
Lemma ids_length {A} k (l : list A) : length (ids_of k l) = length l.
Proof. unfold ids_of. now rewrite map_length, seq_length. Qed.
Lemma part_has nb c x k g make ms m f : ck_enabled c k = true -> gen_update (nb_addr nb) (fun v => v_with_value (nb_vars nb v) (x v)) (ck_accept c) g = Some ms -> In (m, f) ms -> f <> 0%Z ->
  exists l id, part nb c x k g make = Some l /\ In (make id m) l.
Proof.
  intros En E I N. unfold part. rewrite En, E. cbn [option_map]. destruct (shown_has make m f ms (ids_of k ms) (ids_length k ms) I N) as [id J]. eexists. exists id. split; [reflexivity|exact J].
Qed.
Lemma mutable_has vs l v : In v l -> va_fixed (vs v) = false -> In v (mutable_vars vs l).
Proof. intros I F. unfold mutable_vars. apply filter_In. split; [exact I|]. now rewrite F. Qed.
Lemma combine_has {A B} (l : list A) : forall (k : list B) a, length k = length l -> In a l -> exists i, In (i, a) (combine k l).
Proof.
  induction l as [|b l IH]; intros [|i k] a L I; try discriminate; [destruct I|]. destruct I as [->|I]; [exists i; left; reflexivity|].
  cbn [length] in L. destruct (IH k a ltac:(lia) I) as [j J]. exists j. right. exact J.
Qed.
Lemma find_has {A} (f : A -> bool) l a : In a l -> f a = true -> exists b, find f l = Some b /\ In b l /\ f b = true.
Proof.
  intros I F. destruct (find f l) as [b|] eqn:E; [exists b; split; [reflexivity|]; exact (find_some _ _ E)|]. pose proof (List.find_none _ _ E a I). congruence.
Qed.

Section Reach.
  Context (su : surroundings) (mi : bool) (s : dstate) (r : dstate * list sel) (on : ctype -> bool) (pairs : list (nat * nat)) (c : choice).
  Hypothesis Rd : search_ready mi s r.
  Hypothesis St : settled r.
  Hypothesis All : ac_all (ck_accept c) = true.
  Hypothesis En : forall k, k < 3 -> ck_enabled c k = true.
  Let n := ds_number (fst r).
  Let vs := ds_vars (fst r).
  Let nb := setup_neighborhood on pairs su r.
  Definition presents (x : nat -> Z) (m : alterations) : Prop := exists ms t, offer nb c x = Some ms /\ In t ms /\ tm_alts t = m.
  Notation good := (good r).

  Lemma presents_of x l t : In (Some l) (
    [ part nb c x 0 (nb_binary nb) (as_single nb false); part nb c x 1 (nb_integer nb) (as_single nb true);
      Some (if ck_enabled c 2 then selection_moves nb (ck_accept c) x else []) ]) -> In t l -> presents x (tm_alts t).
  Proof.
    intros I J. pose proof (offer_some su mi s r on pairs Rd c x) as N. fold nb in N. destruct (offer nb c x) as [ms|] eqn:E; [|congruence].
    exists ms, t. split; [exact E|]. split; [|reflexivity]. unfold offer in E. refine (concat_options_has _ _ l t E _ J). apply in_app_iff. left. exact I.
  Qed.
  Lemma flip_offered x v : v < n -> va_fixed (vs v) = false -> va_sense (vs v) = VBinary -> presents x [(v, (1 - x v)%Z)].
  Proof.
    intros L F S. assert (J : In (binary_move (fun v => v_with_value (nb_vars nb v) (x v)) (ck_accept c) v) (map (binary_move (fun v => v_with_value (nb_vars nb v) (x v)) (ck_accept c)) (mutable_vars vs (of_sense VBinary n vs)))).
    { apply in_map, mutable_has; [|exact F]. apply of_sense_in. split; assumption. }
    unfold binary_move at 1 in J. rewrite All in J. cbn [v_with_value va_value] in J.
    destruct (part_has nb c x 0 (nb_binary nb) (as_single nb false) _ _ _ (En 0 ltac:(lia)) eq_refl J ltac:(lia)) as (l & id & E & K).
    exact (presents_of x l _ (or_introl E) K).
  Qed.
  Lemma step_offered x v d : v < n -> va_fixed (vs v) = false -> va_sense (vs v) = VInteger -> (d = 1 \/ d = -1)%Z ->
    (va_lower (vs v) <= x v <= va_upper (vs v))%Z -> (va_lower (vs v) <= x v + d <= va_upper (vs v))%Z -> presents x [(v, (x v + d)%Z)].
  Proof.
    intros L F S D R R'. assert (J : In ([(v, (x v + d)%Z)], 1%Z) (flat_map (integer_moves (fun v => v_with_value (nb_vars nb v) (x v)) (ck_accept c)) (mutable_vars vs (of_sense VInteger n vs)))).
    { apply in_flat_map. exists v. split; [apply mutable_has; [|exact F]; apply of_sense_in; split; assumption|]. unfold integer_moves. rewrite All. cbn [orb andb v_with_value va_value va_lower va_upper].
      change (nb_vars nb v) with (vs v). destruct D as [->| ->]; [left|right; left].
      - replace (x v =? va_upper (vs v))%Z with false by lia. reflexivity.
      - replace (x v =? va_lower (vs v))%Z with false by lia. reflexivity. }
    destruct (part_has nb c x 1 (nb_integer nb) (as_single nb true) _ _ _ (En 1 ltac:(lia)) eq_refl J ltac:(lia)) as (l & id & E & K).
    exact (presents_of x l _ (or_intror (or_introl E)) K).
  Qed.
  Lemma swap_offered x t u w : In t (snd r) -> In u (sl_vars t) -> In w (sl_vars t) -> va_fixed (vs w) = false -> w <> u -> x u = 1%Z -> (forall z, In z (sl_vars t) -> z <> u -> x z = 0%Z) ->
    presents x [(u, 0%Z); (w, 1%Z)].
  Proof.
    intros It Iu Iw F D X1 X0. assert (J : exists t', In t' (selection_moves nb (ck_accept c) x) /\ tm_alts t' = [(u, 0%Z); (w, 1%Z)]).
    { assert (M : In w (nb_selection nb)).
      { apply mutable_has; [|exact F]. apply of_sense_in. split; [exact (sr_members _ _ _ Rd t w It Iw)|exact (sel_sense mi s r Rd t w It Iw)]. }
      destruct (combine_has (nb_selection nb) (seq 0 (length (nb_selection nb))) w ltac:(now rewrite seq_length) M) as [i J].
      assert (E1 : sel_of (nb_sels nb) w = Some t).
      { unfold sel_of. destruct (find_has (fun t0 => existsb (Nat.eqb w) (sl_vars t0)) (nb_sels nb) t It) as (t' & E & It' & H); [apply mem_iff, Iw|]. apply mem_iff in H. rewrite E. f_equal.
        exact (sel_same mi s r Rd t' t w It' It H Iw). }
      assert (E2 : selected_in x t = Some u).
      { unfold selected_in. destruct (find_has (fun u0 => (x u0 =? 1)%Z) (sl_vars t) u Iu) as (u' & E & Iu' & H); [now rewrite X1|]. rewrite E. f_equal. apply Z.eqb_eq in H.
        destruct (Nat.eq_dec u' u) as [Q|Q]; [exact Q|]. specialize (X0 u' Iu' Q). lia. }
      exists (mkTm (KSelection (u, 0%Z) (w, 1%Z) (sl_related t)) (sl_related t) false false true (id_of 2 i)). split; [|reflexivity].
      unfold selection_moves. apply in_flat_map. exists (i, w). split; [exact J|]. unfold selection_move. cbn [fst snd]. rewrite E1, E2.
      replace (Nat.eqb u w) with false by (symmetry; apply Nat.eqb_neq; congruence). unfold selection_wanted. rewrite All. cbn [orb]. left. reflexivity. }
    destruct J as (t' & J & <-). refine (presents_of x (selection_moves nb (ck_accept c) x) t' _ J). right. right. left. now rewrite (En 2 ltac:(lia)).
  Qed.

  (** ** Distances *)
  Lemma distance_nonneg x y k : (0 <= distance (fst r) k x y)%Z.
  Proof. induction k as [|k IH]; cbn [distance]; [lia|]. destruct (ds_dep _ k); lia. Qed.
  Lemma distance_zero x y k : distance (fst r) k x y = 0%Z -> forall v, v < k -> ds_dep (fst r) v = None -> x v = y v.
  Proof.
    induction k as [|k IH]; intros E v L D; [lia|]. cbn [distance] in E. pose proof (distance_nonneg x y k) as P.
    destruct (Nat.eq_dec v k) as [->|Q]; [rewrite D in E; lia|]. apply IH; [destruct (ds_dep _ k); lia|lia|exact D].
  Qed.
  Lemma distance_pos x y k : (0 < distance (fst r) k x y)%Z -> exists v, v < k /\ ds_dep (fst r) v = None /\ x v <> y v.
  Proof.
    induction k as [|k IH]; cbn [distance]; [lia|]. intros P. destruct (ds_dep (fst r) k) eqn:D; [|destruct (Z.eq_dec (x k) (y k)) as [Q|Q]].
    - destruct IH as (v & L & H); [lia|]. exists v. split; [lia|exact H].
    - destruct IH as (v & L & H); [lia|]. exists v. split; [lia|exact H].
    - exists k. split; [lia|]. split; assumption.
  Qed.
  Lemma distance_ext x x' y k : (forall v, v < k -> x v = x' v) -> distance (fst r) k x y = distance (fst r) k x' y.
  Proof. induction k as [|k IH]; intros H; [reflexivity|]. cbn [distance]. rewrite IH by (intros; apply H; lia). rewrite (H k) by lia. reflexivity. Qed.
  Lemma distance_set x y k v a : v < k -> ds_dep (fst r) v = None ->
    distance (fst r) k (apply_move x [(v, a)]) y = (distance (fst r) k x y - Z.abs (x v - y v) + Z.abs (a - y v))%Z.
  Proof.
    intros L D. assert (O : forall w, w <> v -> apply_move x [(v, a)] w = x w) by (intros w Q; apply apply_out; intros [I|[]]; cbn [fst] in I; congruence).
    assert (A : apply_move x [(v, a)] v = a) by (apply apply_in; [constructor; [intros []|constructor]|left; reflexivity]).
    induction k as [|k IH]; [lia|]. cbn [distance]. destruct (Nat.eq_dec v k) as [<-|Q].
    - rewrite D, A. rewrite (distance_ext (apply_move x [(v, a)]) x) by (intros; apply O; lia). lia.
    - rewrite IH by lia. rewrite (O k) by congruence. lia.
  Qed.

  Lemma reach_steps y : good y -> forall k x, good x -> (distance (fst r) n x y <= Z.of_nat k)%Z ->
    exists ms, walk presents x ms /\ same_choice (fst r) (arrival x ms) y /\ (Z.of_nat (length ms) <= distance (fst r) n x y)%Z.
  Proof.
    intros [[Y1 Y2] YF]. induction k as [|k IH]; intros x G Dk.
    { pose proof (distance_nonneg x y n). exists []. split; [exact Logic.I|]. split; [|cbn [length]; lia]. intros v L D. apply (distance_zero x y n); [lia|exact L|exact D]. }
    destruct (Z.eq_dec (distance (fst r) n x y) 0) as [Z0|Z0].
    { exists []. split; [exact Logic.I|]. split; [|cbn [length]; lia]. intros v L D. exact (distance_zero x y n Z0 v L D). }
    pose proof (distance_nonneg x y n) as Np. destruct (distance_pos x y n ltac:(lia)) as (v & L & D & Ne).
    (* one move that brings x closer *)
    enough (H : exists m, presents x m /\ good (apply_move x m) /\ (distance (fst r) n (apply_move x m) y < distance (fst r) n x y)%Z).
    { destruct H as (m & P & G' & Dl). destruct (IH (apply_move x m) G' ltac:(lia)) as (ms & W & A & Ln). exists (m :: ms). split; [split; assumption|]. split; [exact A|]. cbn [length]. lia. }
    pose proof G as [[X1 X2] XF]. destruct (X2 v L) as [XB XI]. destruct (Y2 v L) as [YB YI]. cbn [v_with_value va_value va_sense va_lower va_upper] in XB, XI, YB, YI.
    assert (Fx : va_fixed (vs v) = false).
    { destruct (va_fixed (vs v)) eqn:F; [|reflexivity]. exfalso. apply Ne. rewrite (XF v F), (YF v F). reflexivity. }
    assert (One : forall a, (Z.abs (a - y v) < Z.abs (x v - y v))%Z -> plain r v a -> presents x [(v, a)] ->
      exists m, presents x m /\ good (apply_move x m) /\ (distance (fst r) n (apply_move x m) y < distance (fst r) n x y)%Z).
    { intros a Ha Pl Pr. exists [(v, a)]. split; [exact Pr|]. split.
      - apply (good_step mi s r Rd x); [exact G| |constructor; [intros []|constructor]]. left. intros w b [E|[]]. injection E as <- <-. exact Pl.
      - rewrite (distance_set x y n v a L D). lia. }
    destruct (va_sense (ds_vars (fst r) v)) eqn:S.
    - (* binary *)
      apply (One (1 - x v)%Z); [destruct (XB eq_refl), (YB eq_refl); lia| |exact (flip_offered x v L Fx S)].
      split; [exact L|]. split; [exact Fx|]. left. split; [exact S|]. destruct (XB eq_refl); lia.
    - (* integer *)
      specialize (XI eq_refl). specialize (YI eq_refl). fold vs in XI, YI.
      destruct (Z_lt_le_dec (x v) (y v)) as [Q|Q].
      + apply (One (x v + 1)%Z); [lia| |apply step_offered; auto; lia]. split; [exact L|]. split; [exact Fx|]. right. split; [exact S|]. fold vs. lia.
      + apply (One (x v + -1)%Z); [lia| |apply step_offered; auto; lia]. split; [exact L|]. split; [exact Fx|]. right. split; [exact S|]. fold vs. lia.
    - (* selection *)
      destruct (st_selected r St v L S) as (t & It & Iv). destruct (X1 t It) as (u & Iu & Xu & X0). destruct (Y1 t It) as (w & Iw & Yw & Y0). cbn [v_with_value va_value] in Xu, X0, Yw, Y0.
      assert (Q : w <> u).
      { intros ->. apply Ne. destruct (Nat.eq_dec v u) as [->|Q]; [congruence|]. rewrite (X0 v Iv Q), (Y0 v Iv Q). reflexivity. }
      assert (Xw : x w = 0%Z) by exact (X0 w Iw Q). assert (Yu : y u = 0%Z) by (apply (Y0 u Iu); congruence).
      assert (Fw : va_fixed (vs w) = false) by (destruct (va_fixed (vs w)) eqn:F; [|reflexivity]; pose proof (XF w F); pose proof (YF w F); lia).
      assert (Fu : va_fixed (vs u) = false) by (destruct (va_fixed (vs u)) eqn:F; [|reflexivity]; pose proof (XF u F); pose proof (YF u F); lia).
      assert (Nd : forall z, In z (sl_vars t) -> z < n /\ ds_dep (fst r) z = None).
      { intros z Iz. pose proof (sel_sense mi s r Rd t z It Iz) as Sz. split; [exact (sr_members _ _ _ Rd t z It Iz)|].
        apply (not_dependent _ _ (sr_coherent _ _ _ Rd)). auto. }
      exists [(u, 0%Z); (w, 1%Z)]. split; [exact (swap_offered x t u w It Iu Iw Fw Q Xu X0)|]. split.
      + apply (good_step mi s r Rd x); [exact G| |constructor; [intros [E|[]]; cbn [fst] in E; congruence|constructor; [intros []|constructor]]].
        right. exists t, u, w. repeat (split; [assumption || congruence|]). reflexivity.
      + change (apply_move x [(u, 0%Z); (w, 1%Z)]) with (apply_move (apply_move x [(u, 0%Z)]) [(w, 1%Z)]). destruct (Nd u Iu), (Nd w Iw).
        rewrite distance_set, distance_set by assumption. rewrite (apply_out [(u, 0%Z)] x w) by (intros [E|[]]; cbn [fst] in E; congruence). lia.
    - (* dependent *) exfalso. assert (X : ds_dep (fst r) v <> None); [|congruence]. apply (co_dep _ (sr_coherent _ _ _ Rd)). split; [exact L|]. left. exact S.
    - exfalso. assert (X : ds_dep (fst r) v <> None); [|congruence]. apply (co_dep _ (sr_coherent _ _ _ Rd)). split; [exact L|]. right. exact S.
  Qed.
  Lemma reach x y : good x -> good y -> exists ms, walk presents x ms /\ same_choice (fst r) (arrival x ms) y /\ (Z.of_nat (length ms) <= distance (fst r) n x y)%Z.
  Proof. intros G H. apply (reach_steps y H (Z.to_nat (distance (fst r) n x y)) x G). pose proof (distance_nonneg x y n). lia. Qed.

  (** ** Solutions *)
  Lemma meets_good y : meets r y -> good y.
  Proof.
    intros [[R _ _] O]. assert (F : forall v, va_fixed (vs v) = true -> y v = va_value (vs v)).
    { intros v F. destruct (ds_dep (fst r) v) as [k|] eqn:D; [|pose proof (R v D) as W; unfold within in W; fold vs in W; rewrite F in W; exact W].
      assert (X : va_fixed (ds_vars (fst r) v) = false) by (apply (st_free r St); congruence). fold vs in X. congruence. }
    split; [split|exact F].
    - intros t It. destruct (O t It) as (w & Iw & Yw & Y0). exists w. split; [exact Iw|]. cbn [v_with_value va_value]. split; [exact Yw|exact Y0].
    - intros v L. cbn [v_with_value va_value va_sense va_lower va_upper].
      assert (Bd : va_sense (vs v) = VBinary \/ va_sense (vs v) = VInteger -> ds_dep (fst r) v = None).
      { intros S. destruct (ds_dep (fst r) v) as [k|] eqn:D; [|reflexivity]. exfalso. destruct (proj1 (co_dep _ (sr_coherent _ _ _ Rd) v)) as [_ [Q|Q]]; [congruence| |]; fold vs in Q; rewrite Q in S; destruct S; discriminate. }
      pose proof (sr_start _ _ _ Rd) as [_ V]. destruct (V v L) as [VB VI]. fold vs in VB, VI |- *. split; intros S.
      + pose proof (R v (Bd (or_introl S))) as W. unfold within in W. fold vs in W. destruct (va_fixed (vs v)) eqn:Fv; [rewrite W; exact (VB S)|].
        destruct (st_range r St v L Fv (or_introl S)) as [B1 B2]. fold vs in B1, B2. lia.
      + pose proof (R v (Bd (or_intror S))) as W. unfold within in W. fold vs in W. destruct (va_fixed (vs v)) eqn:Fv; [rewrite W; exact (VI S)|exact W].
  Qed.
  Lemma meets_completed x y : meets r y -> same_choice (fst r) x y -> completed (fst r) x y.
  Proof.
    intros [[_ _ Df] _] H v L. destruct (ds_dep (fst r) v) as [k|] eqn:D; [|symmetry; exact (H v L D)]. rewrite (Df v k D). apply eval_ext. intros w K.
    pose proof (co_bound _ (sr_coherent _ _ _ Rd) v k D) as Lk. assert (Ie : In (nth k (ds_exprs (fst r)) no_expr) (ds_exprs (fst r))) by (apply nth_In, Lk).
    pose proof (proj2 (co_exprs _ (sr_coherent _ _ _ Rd) _ Ie) w K) as Lw. symmetry. apply (H w Lw). destruct (ds_dep (fst r) w) as [j|] eqn:Dw; [|reflexivity]. exfalso.
    destruct (proj1 (co_dep _ (sr_coherent _ _ _ Rd) w)) as [_ Q]; [congruence|]. exact (cl_exprs _ (sr_clean _ _ _ Rd) w _ Lw Q Ie K).
  Qed.
  Lemma reach_solution x z : good x -> solves s z -> exists ms y, walk presents x ms /\ completed (fst r) (arrival x ms) y /\ solves s y /\ as_good mi (e_eval (ds_obj s) y) (e_eval (ds_obj s) z).
  Proof.
    intros G Sz. destruct (sr_keeps _ _ _ Rd) as [K1 K2]. destruct (K2 z Sz) as (y & My & Ag). destruct (reach x y G (meets_good y My)) as (ms & W & A & _).
    exists ms, y. split; [exact W|]. split; [exact (meets_completed _ _ My A)|]. split; [apply K1, My|exact Ag].
  Qed.
End Reach.

(** ** Example *)
Fixpoint alts_eqb (p q : alterations) : bool :=
  match p, q with
  | [], [] => true
  | a :: p, b :: q => Nat.eqb (fst a) (fst b) && (snd a =? snd b)%Z && alts_eqb p q
  | _, _ => false
  end.
Lemma alts_eqb_eq p : forall q, alts_eqb p q = true -> p = q.
Proof.
  induction p as [|[u a] p IH]; intros [|[v b] q] H; try discriminate; [reflexivity|]. cbn [alts_eqb fst snd] in H. apply andb_true_iff in H as [H K]. apply andb_true_iff in H as [H1 H2].
  apply Nat.eqb_eq in H1. apply Z.eqb_eq in H2. subst. f_equal. apply IH, K.
Qed.
Definition presents_b nb c x m : bool := match offer nb c x with Some ms => existsb (fun t => alts_eqb (tm_alts t) m) ms | None => false end.
Lemma presents_b_ok nb c x m : presents_b nb c x m = true -> exists ms t, offer nb c x = Some ms /\ In t ms /\ tm_alts t = m.
Proof.
  unfold presents_b. destruct (offer nb c x) as [ms|]; [|discriminate]. intros H. apply existsb_exists in H as (t & I & E). exists ms, t. split; [reflexivity|]. split; [exact I|apply alts_eqb_eq, E].
Qed.
