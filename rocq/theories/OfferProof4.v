(** Proofs for C77, continued: the moves on offer fit. *)
From Coq Require Import List NArith ZArith QArith Permutation Bool Arith Lia.
From Verif Require Import ExprModel ExprSpec ConstraintModel VariableModel TypeModel TypeSpec TypeSpec2 PresolveModel PresolveSpec DuplicateModel DependentModel DependentSpec
  SelectionModel SelectionSpec PrepareModel PrepareSpec EvalModel EvalSpec EvalSpec2 MoveModel MoveSpec TabuModel LoopModel LoopSpec LocalModel LocalSpec WholeModel WholeSpec OfferModel OfferSpec.
From Verif Require Import EvalProof EvalProof2 TypeProof4 MoveProof MoveProof2 MoveProof3 SelectionProof3 PrepareProof5 WholeProof WholeProof2 OfferProof OfferProof3.
Import ListNotations.
Local Open Scope nat_scope.

(** ** The moves of the constraint-based generators *)
Lemma special_alts addr x c t key val ms m : wf (ct_expr c) -> classify x c = (t, key) -> special_moves addr t key c val = Some ms -> In m ms ->
  proper m /\ forall v a, In (v, a) m -> In v (keys (ct_expr c)).
Proof.
  intros W Hc E I.
  assert (Soft : t = SoftSelection -> proper m /\ forall v a, In (v, a) m -> In v (keys (ct_expr c))).
  { intros ->. destruct (soft_coefs x c key W Hc) as (k0 & b & -> & Ik & _). destruct (special_soft _ _ _ _ _ _ E I) as (u & k & Ek & Iu & D & M).
    assert (k0 = k) by congruence. subst k0. apply (in_map fst) in Ik. cbn [fst] in Ik.
    assert (Ea : map fst m = [u; k]) by (destruct M as [-> | ->]; reflexivity). split.
    - unfold proper. rewrite Ea. constructor; [intros [H|[]]; congruence|]. constructor; [intros []|constructor].
    - intros v a J. apply (in_map fst) in J. rewrite Ea in J. cbn [fst] in J. destruct J as [<-|[<-|[]]]; [exact Iu|exact Ik]. }
  assert (Tri : t = TrinomialExclusiveNOR -> proper m /\ forall v a, In (v, a) m -> In v (keys (ct_expr c))).
  { intros ->. cbn [special_moves] in E. unfold wf, keys in *. destruct (ex_sens (ct_expr c)) as [|[u a] [|[v b] [|[w d] [|]]]]; try discriminate. injection E as <-.
    cbn [map fst] in *. assert (Ea : map fst m = [u; v; w]) by (destruct I as [<-|[<-|[]]]; reflexivity). split; [unfold proper; rewrite Ea; exact W|].
    intros z e J. apply (in_map fst) in J. rewrite Ea in J. exact J. }
  destruct (ctype_eq_dec t SoftSelection) as [T|T]; [exact (Soft T)|]. destruct (ctype_eq_dec t TrinomialExclusiveNOR) as [T'|T']; [exact (Tri T')|]. clear Soft Tri.
  assert (B : exists bn, to_binomial addr c = Some bn).
  { destruct t; try contradiction; cbn [special_moves] in E; destruct (to_binomial addr c) as [bn|]; try discriminate; exists bn; reflexivity. }
  destruct B as [bn B]. pose proof B as B'. unfold to_binomial in B'. destruct (ex_sens (ct_expr c)) as [|[u a] [|[v b] [|]]] eqn:Es; try discriminate.
  pose proof (pair_neq c u v a b W Es) as D. assert (K : keys (ct_expr c) = [u; v]) by (unfold keys; rewrite Es; reflexivity).
  assert (F : bn_first bn <> bn_second bn /\ In (bn_first bn) [u; v] /\ In (bn_second bn) [u; v]).
  { destruct (addr v <? addr u)%N; injection B' as <-; cbn [bn_first bn_second In]; intuition congruence. }
  destruct F as (F1 & F2 & F3). clear B' D Es.
  assert (Ea : map fst m = [bn_first bn; bn_second bn] \/ map fst m = [bn_second bn; bn_first bn]).
  { destruct t; try contradiction; cbn [special_moves] in E; rewrite B in E; cbv zeta in E; try discriminate.
    1-6,9: injection E as <-; destruct I as [<-|[<-|[]]]; left; reflexivity.
    - destruct (match key with Some w => _ | None => _ end).
      + destruct (qdiv _ _); [|discriminate]. injection E as <-. destruct I as [<-|[<-|[]]]; right; reflexivity.
      + destruct (qdiv _ _); [|discriminate]. injection E as <-. destruct I as [<-|[<-|[]]]; left; reflexivity.
    - destruct (both _ _) as [[[p q] [r0 s]]|]; [|discriminate]. injection E as <-. destruct I as [<-|[<-|[<-|[<-|[]]]]]; left; reflexivity.
    - destruct (both _ _) as [[[p q] [r0 s]]|]; [|discriminate]. injection E as <-. destruct I as [<-|[<-|[<-|[<-|[]]]]]; left; reflexivity. }
  assert (P : NoDup (map fst m) /\ incl (map fst m) [u; v]).
  { destruct Ea as [-> | ->]; (split; [constructor; [intros [H|[]]; congruence|]; constructor; [intros []|constructor]|intros z [<-|[<-|[]]]; assumption]). }
  destruct P as [P1 P2]. split; [exact P1|]. intros z e J. rewrite K. apply P2. apply (in_map fst) in J. exact J.
Qed.

(** ** Lists *)
Lemma covers_reset cs g us l : covers (map (fun c => c_reset_penalty c g) cs) us l <-> covers cs us l.
Proof.
  unfold covers. split; intros H i c v E En Iv J.
  - apply (H i (c_reset_penalty c g) v); [rewrite nth_error_map, E; reflexivity|exact En|exact Iv|exact J].
  - rewrite nth_error_map in E. destruct (nth_error cs i) as [c0|] eqn:E0; [|discriminate]. cbn [option_map] in E. injection E as <-. exact (H i c0 v E0 En Iv J).
Qed.
Lemma in_shown make ids ms t : In t (shown make ids ms) -> exists id m f, In (m, f) ms /\ f <> 0%Z /\ t = make id m.
Proof.
  unfold shown. intros I. apply in_flat_map in I as ([id [m f]] & J & I). cbn [fst snd] in I. destruct (Z.eqb_spec f 0) as [E|E]; [destruct I|]. destruct I as [<-|[]].
  exists id, m, f. split; [exact (in_combine_r _ _ _ _ J)|]. auto.
Qed.
Lemma find_selected (x : nat -> Z) (l : list nat) : match find (fun u => (x u =? 1)%Z) l with Some u => In u l /\ x u = 1%Z | None => True end.
Proof. destruct (find _ l) as [u|] eqn:E; [|exact Logic.I]. apply find_some in E as [I E]. split; [exact I|lia]. Qed.

Section Offer.
  Context (su : surroundings) (o : search_options) (mi : bool) (s : dstate) (r : dstate * list sel) (on : ctype -> bool) (pairs : list (nat * nat)).
  Hypothesis Rd : search_ready mi s r.
  Hypothesis St : settled r.
  Hypothesis Se : searchable su r.
  Hypothesis Ls : forall t, In t (snd r) -> listed (ds_cons (fst r)) t.
  Hypothesis Fp : flippable_pairs r pairs.
  Let n := ds_number (fst r).
  Let vs := ds_vars (fst r).
  Let is01 := zero_one_in n vs.
  Let s0 := search_state o mi r.
  Let nb := setup_neighborhood on pairs su r.
  Notation now x := (fun v => v_with_value (vs v) (x v)).

  Definition good (x : nat -> Z) : Prop := valid r x /\ forall v, va_fixed (vs v) = true -> x v = va_value (vs v).
  Definition plain (v : nat) (a : Z) : Prop := v < n /\ va_fixed (vs v) = false /\
    ((va_sense (vs v) = VBinary /\ 0 <= a <= 1) \/ (va_sense (vs v) = VInteger /\ va_lower (vs v) <= a <= va_upper (vs v)))%Z.
  Definition swap (x : nat -> Z) (m : alterations) : Prop := exists t u v, In t (snd r) /\ In u (sl_vars t) /\ In v (sl_vars t) /\ u <> v /\ x u = 1%Z /\
    va_fixed (vs u) = false /\ va_fixed (vs v) = false /\ m = [(u, 0%Z); (v, 1%Z)].
  Definition fits (x : nat -> Z) (m : alterations) : Prop := (forall v a, In (v, a) m -> plain v a) \/ swap x m.

  Let Co := sr_coherent _ _ _ Rd.
  Lemma sel_sense t v : In t (snd r) -> In v (sl_vars t) -> va_sense (vs v) = VSelection.
  Proof. intros It Iv. destruct (sr_ready _ _ _ Rd) as ((_ & S) & _). exact (proj2 (S t It) v Iv). Qed.
  Lemma sel_same t t' v : In t (snd r) -> In t' (snd r) -> In v (sl_vars t) -> In v (sl_vars t') -> t = t'.
  Proof.
    intros It It' Iv Iv'. destruct (sr_ready _ _ _ Rd) as ((D & _) & _). apply In_nth_error in It as [i E]. apply In_nth_error in It' as [j E'].
    destruct (Nat.eq_dec i j) as [->|Ne]; [congruence|]. destruct (D i j t t' Ne E E' v Iv Iv').
  Qed.
  Lemma dep_sense v : In v (map fst (ms_deps s0)) -> is_dependent (vs v) /\ va_fixed (vs v) = false.
  Proof. intros I. destruct (defined_key _ v Co I) as (N & _ & D). split; [exact D|exact (st_free r St v N)]. Qed.

  Lemma good_agree x y : (forall v, ~ In v (map fst (ms_deps s0)) -> x v = y v) -> good x -> good y.
  Proof.
    intros A [[V1 V2] F].
    assert (As : forall v, va_sense (vs v) = VBinary \/ va_sense (vs v) = VInteger \/ va_sense (vs v) = VSelection -> x v = y v).
    { intros v H. apply A. intros I. destruct (dep_sense v I) as [[D|D] _]; rewrite D in H; destruct H as [H|[H|H]]; discriminate. }
    assert (Af : forall v, va_fixed (vs v) = true -> x v = y v).
    { intros v H. apply A. intros I. destruct (dep_sense v I). congruence. }
    split; [split|].
    - intros t It. destruct (V1 t It) as (w & W1 & W2 & W3). exists w. split; [exact W1|]. cbn [v_with_value va_value] in *. split.
      + rewrite <- As; [exact W2|]. right. right. exact (sel_sense t w It W1).
      + intros u Iu Du. rewrite <- As; [exact (W3 u Iu Du)|]. right. right. exact (sel_sense t u It Iu).
    - intros v L. destruct (V2 v L) as [B I]. cbn [v_with_value va_value va_sense va_lower va_upper] in *. split; intros H.
      + rewrite <- As; [exact (B H)|auto].
      + rewrite <- As; [exact (I H)|auto].
    - intros v H. rewrite <- (Af v H). exact (F v H).
  Qed.
  Lemma good_step x m : good x -> fits x m -> proper m -> good (apply_move x m).
  Proof.
    intros [[V1 V2] F] Fi P.
    assert (Free : forall v, In v (map fst m) -> va_fixed (vs v) = false).
    { intros v I. apply in_map_iff in I as ([w a] & <- & I). cbn [fst]. destruct Fi as [H|(t & u & w' & _ & _ & _ & _ & _ & Fu & Fv & ->)]; [apply (H w a I)|].
      destruct I as [I|[I|[]]]; injection I as <- _; assumption. }
    split; [split|].
    - intros t It. destruct (V1 t It) as (w & W1 & W2 & W3). cbn [v_with_value va_value] in *.
      destruct Fi as [H|(t' & u & v & It' & Iu & Iv & D & Xu & _ & _ & ->)].
      + assert (Out : forall z, In z (sl_vars t) -> apply_move x m z = x z).
        { intros z Iz. apply apply_out. intros J. apply in_map_iff in J as ([z' a] & E & J). cbn [fst] in E. subst z'. destruct (H z a J) as (_ & _ & [[Q _]|[Q _]]); rewrite (sel_sense t z It Iz) in Q; discriminate. }
        exists w. split; [exact W1|]. cbn [v_with_value va_value]. rewrite (Out w W1). split; [exact W2|]. intros z Iz Dz. rewrite (Out z Iz). exact (W3 z Iz Dz).
      + destruct (in_dec Nat.eq_dec v (sl_vars t)) as [Jv|Jv].
        * assert (t' = t) by exact (sel_same t' t v It' It Iv Jv). subst t'. assert (u = w).
          { destruct (Nat.eq_dec u w) as [Q|Q]; [exact Q|]. specialize (W3 u Iu Q). cbn [v_with_value va_value] in W3. lia. }
          subst w. exists v. split; [exact Iv|]. cbn [v_with_value va_value]. rewrite (apply_in _ x v 1%Z P) by (cbn; auto). split; [reflexivity|].
          intros z Iz Dz. destruct (Nat.eq_dec z u) as [->|Du]; [rewrite (apply_in _ x u 0%Z P) by (cbn; auto); reflexivity|].
          rewrite apply_out by (cbn [map fst In]; intuition congruence). exact (W3 z Iz Du).
        * assert (Ju : ~ In u (sl_vars t)) by (intros Ju; apply Jv; rewrite <- (sel_same t' t u It' It Iu Ju); exact Iv).
          assert (Out : forall z, In z (sl_vars t) -> apply_move x [(u, 0%Z); (v, 1%Z)] z = x z).
          { intros z Iz. apply apply_out. cbn [map fst In]. intros [Q|[Q|[]]]; subst z; contradiction. }
          exists w. split; [exact W1|]. cbn [v_with_value va_value]. rewrite (Out w W1). split; [exact W2|]. intros z Iz Dz. rewrite (Out z Iz). exact (W3 z Iz Dz).
    - intros v L. destruct (V2 v L) as [B I]. cbn [v_with_value va_value va_sense va_lower va_upper] in *.
      destruct (in_dec Nat.eq_dec v (map fst m)) as [J|J]; [|rewrite (apply_out m x v J); split; assumption].
      apply in_map_iff in J as ([w a] & E & J). cbn [fst] in E. subst w. rewrite (apply_in m x v a P J).
      destruct Fi as [H|(t & u & w & It & Iu & Iw & _ & _ & _ & _ & ->)].
      + destruct (H v a J) as (_ & _ & [[Q R]|[Q R]]); fold vs; rewrite Q; (split; intros Q'; [try discriminate|try discriminate]); lia.
      + assert (S : va_sense (vs v) = VSelection) by (destruct J as [J|[J|[]]]; injection J as <- _; [exact (sel_sense t u It Iu)|exact (sel_sense t w It Iw)]).
        fold vs. rewrite S. split; discriminate.
    - intros v H. rewrite apply_out; [exact (F v H)|]. intros J. rewrite (Free v J) in H. discriminate.
  Qed.
  Lemma fits_move x y m : (forall v, In v (map fst m) -> x v = y v) -> fits x m -> fits y m.
  Proof.
    intros A [H|(t & u & v & It & Iu & Iv & D & Xu & Fu & Fv & E)]; [left; exact H|]. right. exists t, u, v. rewrite E in A.
    rewrite <- (A u) by (left; reflexivity). auto 10.
  Qed.

  (** *** Trials *)
  Lemma plain_01 v a : plain v a -> is01 v = true -> (0 <= a <= 1)%Z.
  Proof.
    intros (L & _ & [[S R]|[S R]]) H; [exact R|]. unfold is01, zero_one_in in H. rewrite S in H. apply andb_true_iff in H as [_ H]. apply andb_true_iff in H as [H1 H2].
    apply Z.leb_le in H1, H2. lia.
  Qed.
  Lemma fits_alts x m v a : fits x m -> In (v, a) m -> ms_fixed s0 v = false /\ (is01 v = true -> (0 <= a <= 1)%Z).
  Proof.
    intros [H|(t & u & w & _ & _ & _ & _ & _ & Fu & Fw & ->)] I.
    - split; [apply (H v a I)|exact (plain_01 v a (H v a I))].
    - destruct I as [I|[I|[]]]; injection I as <- <-; (split; [assumption|lia]).
  Qed.
  Lemma cons_wf c : In c (ds_cons (fst r)) -> wf (ct_expr c).
  Proof. intros I. apply (co_cons _ Co c I). Qed.
  Lemma single_related v : NoDup (related_constraints (nb_cons nb) v) /\ covers (ds_cons (fst r)) [v] (related_constraints (nb_cons nb) v).
  Proof.
    split; [apply sens_nodup; exact cons_wf|]. intros i c w E _ [<-|[]] J. unfold related_constraints. apply in_map_iff in J as ([z a] & Ez & J). cbn [fst] in Ez. subst z.
    apply in_map_iff. exists (i, a). split; [reflexivity|]. apply sens_entry0. exists c. split; [exact E|exact J].
  Qed.
  Definition tok (tg : nat -> Z) : Prop := targets_ok r tg.
  Notation sane := (sane is01 s0 fits tok).
  Lemma trial_parts x t : fits x (tm_alts t) -> proper (tm_alts t) -> NoDup (tm_related t) -> covers (ds_cons (fst r)) (map fst (tm_alts t)) (tm_related t) ->
    match tm_kind t with KSelection a b related => exists own vars, In (fst a) vars /\ In (fst b) vars /\
      Permutation related (selection_related (md_cons (ms_model s0)) own vars) /\ (forall c, nth_error (md_cons (ms_model s0)) own = Some c -> ct_enabled c = false) | _ => True end ->
    (tm_integer t = true -> exists v a, tm_alts t = [(v, a)] /\ is01 v = false) -> trial_ok is01 s0 t.
  Proof.
    intros Fi P N C K I. split; [exact P|]. split; [intros v a J; exact (fits_alts x _ v a Fi J)|]. split; [exact N|]. split; [apply covers_reset, C|]. split; [exact K|exact I].
  Qed.
  Lemma sane_multi x id m : proper m -> (forall v a, In (v, a) m -> plain v a) -> sane x (as_multi nb id m).
  Proof.
    intros P H. destruct (move_related_ok (su_cname su) (ds_cons (fst r)) m (sb_names su r Se)) as [N C].
    split; [|split; [left; exact H|discriminate]]. apply (trial_parts x); [left; exact H|exact P|exact N|exact C|exact Logic.I|discriminate].
  Qed.
  Lemma sane_single x id v a : plain v a -> sane x (as_single nb false id [(v, a)]).
  Proof.
    intros H. assert (F : fits x [(v, a)]) by (left; intros w b [E|[]]; injection E as <- <-; exact H). destruct (single_related v) as [N C].
    split; [|split; [exact F|discriminate]]. apply (trial_parts x); [exact F|constructor; [intros []|constructor]|exact N|exact C|exact Logic.I|discriminate].
  Qed.
  Lemma sane_integer x id v a : plain v a -> va_sense (vs v) = VInteger -> sane x (as_single nb true id [(v, a)]).
  Proof.
    intros H S. assert (F : fits x [(v, a)]) by (left; intros w b [E|[]]; injection E as <- <-; exact H). destruct (single_related v) as [N C].
    split; [|split; [exact F|]].
    - apply (trial_parts x); [exact F|constructor; [intros []|constructor]|exact N|exact C|exact Logic.I|]. intros _. exists v, a. split; [reflexivity|].
      unfold is01, zero_one_in. fold vs. rewrite S. destruct H as (L & Fx & _). destruct (sb_integers su r Se v L Fx S) as [B|B]; fold vs in B.
      + replace (0 <=? va_lower (vs v))%Z with false by lia. apply andb_false_r.
      + replace (va_upper (vs v) <=? 1)%Z with false by lia. rewrite andb_false_r. apply andb_false_r.
    - intros _. exists v, a. split; [reflexivity|]. intros tg T. left. intros w b [E|[]]. injection E as <- <-. destruct H as (L & Fx & _). split; [exact L|]. split; [exact Fx|]. right. split; [exact S|exact (T v L S)].
  Qed.

  (** *** The generators *)
  Lemma in_part c x k g make l t : part nb c x k g make = Some l -> In t l -> exists id m, offered (nb_addr nb) (now x) (ck_accept c) g m /\ t = make id m.
  Proof.
    unfold part. destruct (ck_enabled c k); [|intros E; injection E as <-; intros []]. destruct (gen_update _ _ _ _) as [ms|] eqn:E; [|discriminate].
    intros Q. injection Q as <-. intros I. apply in_shown in I as (id & m & f & J & N & ->). exists id, m. split; [|reflexivity]. exists ms, f. auto.
  Qed.
  Lemma binary_plain c x m : good x -> offered (nb_addr nb) (now x) (ck_accept c) (nb_binary nb) m -> exists v a, m = [(v, a)] /\ plain v a.
  Proof.
    intros [[_ V] _] (l & f & E & I & N). cbn [nb nb_binary setup_neighborhood setup_binary gen_update] in E. injection E as <-. apply in_map_iff in I as (v & E & I).
    apply setup_mutable in I as [I Fx]. apply of_sense_in in I as [L S]. unfold binary_move in E. cbn [v_with_value va_value] in E.
    assert (m = [(v, (1 - x v)%Z)]) by congruence. exists v, (1 - x v)%Z. split; [assumption|]. split; [exact L|]. split; [exact Fx|]. left. split; [exact S|].
    destruct (V v L) as [B _]. cbn [v_with_value va_value va_sense] in B. destruct (B S); lia.
  Qed.
  Lemma integer_plain c x m : good x -> offered (nb_addr nb) (now x) (ck_accept c) (nb_integer nb) m -> exists v a, m = [(v, a)] /\ plain v a /\ va_sense (vs v) = VInteger.
  Proof.
    intros [[_ V] _] (l & f & E & I & N). cbn [nb nb_integer setup_neighborhood setup_integer gen_update] in E. injection E as <-. apply in_flat_map in I as (v & I & J).
    apply setup_mutable in I as [I Fx]. apply of_sense_in in I as [L S]. destruct (V v L) as [_ B]. specialize (B S).
    destruct (integer_moves_ok (now x) (ck_accept c) v m f Fx B J N) as (R & a & -> & _). exists v, a. split; [reflexivity|]. split; [|exact S].
    destruct (R v a (or_introl eq_refl)) as [_ R2]. split; [exact L|]. split; [exact Fx|]. right. split; [exact S|exact R2].
  Qed.
  Lemma item_in x cs t c k : In (c, k) (items_of x cs t) -> In c cs /\ classify x c = (t, k).
  Proof.
    unfold items_of. intros I. apply in_flat_map in I as (i & J & I). unfold type_refs in J. apply filter_In in J as [_ J].
    destruct (nth_error cs i) as [d|] eqn:E; [|destruct I]. destruct I as [I|[]]. injection I as -> <-. split; [exact (nth_error_In _ _ E)|].
    destruct (ctype_eq_dec _ _) as [<-|]; [|discriminate]. now destruct (classify x c).
  Qed.
  Lemma special_plain c x k t m : In (k, t) special_types ->
    offered (nb_addr nb) (now x) (ck_accept c) (setup_special vs t (items_of (vctx (su_name su) vs) (ds_cons (fst r)) t)) m ->
    proper m /\ forall v a, In (v, a) m -> plain v a.
  Proof.
    intros Tp Of. set (items := items_of _ _ t) in *.
    assert (Eq : setup_special vs t items = setup_special (now x) t items) by reflexivity.
    pose proof Of as (l & f & E & I & N). rewrite Eq in E. destruct (special_sources _ _ _ _ _ _ _ _ E I) as (d & key & ms & Id & En & Free & Sm & Im).
    destruct (item_in _ _ _ _ _ Id) as [Ic Ec]. destruct (special_alts _ _ _ _ _ _ _ _ (cons_wf d Ic) Ec Sm Im) as [P K]. split; [exact P|]. intros v a J.
    specialize (K v a J). assert (L : v < n) by exact (proj2 (co_cons _ Co d Ic) v K).
    apply in_map_iff in K as ([z b] & Ez & K). cbn [fst] in Ez. subst z. destruct (Free v b K) as [F1 F2]. cbn [v_with_value va_fixed va_sense] in F1, F2.
    assert (Nd : ~ is_dependent (vs v)) by (intros D; apply (cl_cons _ (sr_clean _ _ _ Rd) v d L D Ic En); apply (in_map fst) in K; exact K).
    assert (Rs : respects (now x) m).
    { refine (offered_respects _ _ _ _ _ _ Of). unfold setup_special. destruct t; cbn [data_ok]; try exact Logic.I. intros d' k' w Jd Jw. apply filter_In in Jd as [Jd Ef]. cbn [fst] in Ef.
      destruct (item_in _ _ _ _ _ Jd) as [Jc Je]. pose proof (classify_req _ _ _ _ Je) as [Q _]. cbn [v_with_value va_lower va_upper].
      destruct (soft_coefs _ _ _ (cons_wf d' Jc) Je) as (k0 & b0 & Ek & Ik & _).
      assert (Jv : In w (variables d')) by (destruct Jw as [Jw|Jw]; [exact Jw|]; assert (k0 = w) by congruence; subst k0; apply (in_map fst) in Ik; exact Ik).
      unfold effective in Ef. apply andb_true_iff in Ef as [En' Ef]. apply negb_true_iff in Ef. pose proof Jv as Jk. apply in_map_iff in Jv as ([z b1] & Ez & Jv). cbn [fst] in Ez. subst z.
      pose proof (existsb_false_in _ _ _ Ef Jv) as Q'. cbn [fst] in Q'. apply orb_false_iff in Q' as [Q1 _].
      apply (st_range r St w (proj2 (co_cons _ Co d' Jc) w Jk) Q1). specialize (Q w Jk). exact Q. }
    destruct (Rs v a J) as [_ R2]. cbn [v_with_value va_lower va_upper] in R2. split; [exact L|]. split; [exact F1|].
    destruct (va_sense (vs v)) eqn:S; try (exfalso; apply Nd; unfold is_dependent; rewrite S; auto; fail); [left|right|contradiction]; (split; [reflexivity|]); [|exact R2].
    destruct (st_range r St v L F1 (or_introl S)) as [B1 B2]. fold vs in B1, B2. lia.
  Qed.
  Lemma chain_plain c x m : choice_ok r c -> offered (nb_addr nb) (now x) (ck_accept c) (GChain (map snd (ck_chains c)) (fun _ => true)) m ->
    proper m /\ forall v a, In (v, a) m -> plain v a.
  Proof.
    intros Ck (l & f & E & I & N). cbn [gen_update] in E. injection E as <-. apply in_flag_all in I as (I & b & ->). apply in_map_iff in I as ([k m'] & Em & I). cbn [snd] in Em. subst m'.
    destruct (Ck k m I) as [P H]. split; [exact P|]. intros v a J. destruct (H v a J) as (L & S & A). apply flag_nonzero in N as [Fx _].
    pose proof (existsb_false_in _ _ _ Fx J) as F1. cbn [fst v_with_value va_fixed] in F1. split; [exact L|]. split; [exact F1|]. left. split; [exact S|]. lia.
  Qed.
  Lemma two_flip_plain c x m : offered (nb_addr nb) (now x) (ck_accept c) (nb_two_flip nb) m -> proper m /\ forall v a, In (v, a) m -> plain v a.
  Proof.
    intros (l & f & E & I & N). cbn [nb nb_two_flip setup_neighborhood gen_update] in E. injection E as <-. apply in_flag_all in I as (I & b & ->). apply in_flat_map in I as ([u w] & J & I).
    destruct (Fp u w J) as [D H].
    assert (Sel : has_selection (now x) m = false).
    { unfold move_flag in N. cbn [rule_two_flip ru_available ru_selection andb negb] in N. destruct (has_selection (now x) m); [|reflexivity]. exfalso. apply N. now destruct b. }
    apply flag_nonzero in N as [Fx _].
    assert (Ea : map fst m = [u; w] /\ forall v a, In (v, a) m -> (v = u \/ v = w) /\ (0 <= a <= 1)%Z).
    { cbn [two_flip_moves fst snd] in I. destruct I as [<-|[<-|[]]]; (split; [reflexivity|]); intros v a [K|[K|[]]]; injection K as <- <-; split; auto; lia. }
    destruct Ea as [Ea Eb]. split; [unfold proper; rewrite Ea; constructor; [intros [Q|[]]; congruence|]; constructor; [intros []|constructor]|].
    intros v a K. destruct (Eb v a K) as [V A]. destruct (H v V) as [L S]. pose proof (existsb_false_in _ _ _ Fx K) as F1. cbn [fst v_with_value va_fixed] in F1.
    pose proof (existsb_false_in _ _ _ Sel K) as F2. cbn [fst v_with_value va_sense] in F2. split; [exact L|]. split; [exact F1|]. left. split; [|exact A].
    destruct S as [S|S]; [exact S|]. unfold vs in F2. rewrite S in F2. discriminate.
  Qed.
  Lemma selection_sane ac x t : good x -> In t (selection_moves nb ac x) -> sane x t.
  Proof.
    intros [_ F] I. unfold selection_moves in I. apply in_flat_map in I as ([i v] & J & I). apply in_combine_r in J. cbn [nb nb_selection setup_neighborhood] in J.
    apply setup_mutable in J as [_ Fv]. unfold selection_move in I. cbn [snd fst] in I. unfold sel_of in I.
    destruct (find _ (nb_sels nb)) as [q|] eqn:Eq; [|destruct I]. apply find_some in Eq as [Iq Ev]. apply existsb_exists in Ev as (w & Iw & Ew). apply Nat.eqb_eq in Ew. subst w.
    pose proof (find_selected x (sl_vars q)) as Fs. unfold selected_in in I. destruct (find _ (sl_vars q)) as [u|]; [|destruct I]. destruct Fs as [Iu Xu].
    destruct (Nat.eqb_spec u v) as [D|D]; [destruct I|]. destruct (selection_wanted _ _); [|destruct I]. destruct I as [<-|[]].
    assert (Fu : va_fixed (vs u) = false).
    { destruct (va_fixed (vs u)) eqn:Eu; [|reflexivity]. exfalso. apply (sb_selections su r Se q u Iq Iu Eu). rewrite <- Xu. symmetry. exact (F u Eu). }
    assert (Fi : fits x [(u, 0%Z); (v, 1%Z)]) by (right; exists q, u, v; auto 10).
    destruct (Ls q Iq) as [Pm Dis].
    destruct (selection_related_ok (ds_cons (fst r)) (sl_con q) (sl_vars q) (sl_related q) Pm Dis) as [N C].
    split; [|split; [exact Fi|discriminate]]. apply (trial_parts x); [exact Fi| |exact N| | |discriminate]; cbn [tm_kind tm_alts tm_related map fst].
    - constructor; [intros [Q|[]]; cbn [fst] in Q; congruence|]. constructor; [intros []|constructor].
    - apply C. intros z [<-|[<-|[]]]; assumption.
    - exists (sl_con q), (sl_vars q). split; [exact Iu|]. split; [exact Iw|]. split.
      + rewrite (related_expr _ (ds_cons (fst r))); [exact Pm|]. cbn [s0 search_state ms_model md_cons]. rewrite map_map. apply map_ext. reflexivity.
      + intros d E. cbn [s0 search_state ms_model md_cons] in E. rewrite nth_error_map in E. destruct (nth_error (ds_cons (fst r)) (sl_con q)) as [d0|] eqn:E0; [|discriminate].
        cbn [option_map] in E. injection E as <-. exact (Dis d0 eq_refl).
  Qed.
  Lemma offer_sane c x ms t : choice_ok r c -> good x -> offer nb c x = Some ms -> In t ms -> sane x t.
  Proof.
    intros Ck G E I. unfold offer in E. destruct (concat_options_in _ _ _ E I) as (l & Jl & It). clear E I.
    apply in_app_iff in Jl as [Jl|Jl]; [|apply in_app_iff in Jl as [Jl|Jl]].
    - destruct Jl as [Jl|[Jl|[Jl|[]]]].
      + destruct (in_part _ _ _ _ _ _ _ Jl It) as (id & m & Of & ->). destruct (binary_plain c x m G Of) as (v & a & -> & P). apply sane_single, P.
      + destruct (in_part _ _ _ _ _ _ _ Jl It) as (id & m & Of & ->). destruct (integer_plain c x m G Of) as (v & a & -> & P & S). exact (sane_integer x id v a P S).
      + injection Jl as <-. destruct (ck_enabled c 2); [|destruct It]. exact (selection_sane _ x t G It).
    - apply in_map_iff in Jl as ([k g] & Jl & Jg). cbn [fst snd] in Jl. cbn [nb nb_special setup_neighborhood] in Jg. apply in_map_iff in Jg as ([k' ty] & Eg & Jg). injection Eg as -> <-. cbn [snd fst] in *.
      apply filter_In in Jg as [Jg _]. destruct (in_part _ _ _ _ _ _ _ Jl It) as (id & m & Of & ->). destruct (special_plain c x k ty m Jg Of) as [P H]. exact (sane_multi x id m P H).
    - destruct Jl as [Jl|[Jl|[]]].
      + destruct (ck_enabled c 15); [|injection Jl as <-; destruct It]. cbn [gen_update option_map] in Jl. injection Jl as <-. apply in_shown in It as (id & m & f & J & N & ->).
        destruct (chain_plain c x m Ck) as [P H]; [eexists; exists f; split; [reflexivity|split; [exact J|exact N]]|]. exact (sane_multi x id m P H).
      + destruct (in_part _ _ _ _ _ _ _ Jl It) as (id & m & Of & ->). destruct (two_flip_plain c x m Of) as [P H]. exact (sane_multi x id m P H).
  Qed.
  Lemma in_tried c x t : In t (tried nb c x) -> exists ms, offer nb c x = Some ms /\ In t ms.
  Proof.
    unfold tried. destruct (offer nb c x) as [ms|]; [|intros []]. intros I. exists ms. split; [reflexivity|]. apply in_flat_map in I as (i & _ & I).
    destruct (nth_error ms i) as [u|] eqn:E; [|destruct I]. destruct I as [<-|[]]. exact (nth_error_In _ _ E).
  Qed.
  Lemma tried_sane c x t : choice_ok r c -> good x -> In t (tried nb c x) -> sane x t.
  Proof. intros Ck G I. destruct (in_tried c x t I) as (ms & E & J). exact (offer_sane c x ms t Ck G E J). Qed.
  Lemma fits_place x m v a : fits x m -> In (v, a) m -> v < n /\ va_fixed (vs v) = false /\ ds_dep (fst r) v = None /\ (va_lower (vs v) <= a <= va_upper (vs v))%Z.
  Proof.
    intros [H|(t & u & w & It & Iu & Iw & _ & _ & Fu & Fw & ->)] I.
    - destruct (H v a I) as (L & Fx & S). split; [exact L|]. split; [exact Fx|]. split.
      + destruct (ds_dep (fst r) v) as [k|] eqn:E; [|reflexivity]. exfalso. destruct (proj1 (co_dep _ Co v)) as [_ D]; [congruence|]. fold vs in D. destruct S as [[S _]|[S _]], D as [D|D]; rewrite S in D; discriminate.
      + destruct S as [[S R]|[S R]]; [|exact R]. destruct (st_range r St v L Fx (or_introl S)) as [B1 B2]. fold vs in B1, B2. lia.
    - assert (X : forall z b, In z (sl_vars t) -> va_fixed (vs z) = false -> (0 <= b <= 1)%Z -> z < n /\ va_fixed (vs z) = false /\ ds_dep (fst r) z = None /\ (va_lower (vs z) <= b <= va_upper (vs z))%Z).
      { intros z b Iz Fz B. pose proof (sel_sense t z It Iz) as S. pose proof (sr_members _ _ _ Rd t z It Iz) as L. split; [exact L|]. split; [exact Fz|]. split; [apply (not_dependent _ _ Co); auto|].
        destruct (st_range r St z L Fz (or_intror S)) as [B1 B2]. fold vs in B1, B2. lia. }
      destruct I as [I|[I|[]]]; injection I as <- <-; apply X; auto; lia.
  Qed.
  Lemma offer_legal c x ms t : choice_ok r c -> good x -> offer nb c x = Some ms -> In t ms -> legal r x t.
  Proof.
    intros Ck G E I. destruct (offer_sane c x ms t Ck G E I) as ((P & _ & N & C & _) & Fi & _).
    split; [exact P|]. split; [intros v a J; exact (fits_place x _ v a Fi J)|]. split; [apply (good_step x _ G Fi P)|]. split; [exact N|]. apply (covers_reset _ (global_penalty o (fst r))). exact C.
  Qed.
  Lemma tried_anchored c x t : all_anchored r -> choice_ok r c -> good x -> In t (tried nb c x) -> anchored (ms_model s0) t.
  Proof.
    intros An Ck G I. destruct (tried_sane c x t Ck G I) as (_ & Fi & _). intros v a J. destruct (fits_place x _ v a Fi J) as (L & Fx & Dp & _).
    destruct (An v L Fx Dp) as (d & Id & En & K). exists (c_reset_penalty d (global_penalty o (fst r))). split; [cbn [s0 search_state ms_model md_cons]; apply (in_map (fun c => c_reset_penalty c (global_penalty o (fst r)))), Id|]. split; [exact En|exact K].
  Qed.

  (** *** The offer is always made *)
  Lemma concat_some {A} (l : list (option (list A))) : (forall a, In a l -> a <> None) -> concat_options l <> None.
  Proof.
    induction l as [|[a|] l IH]; intros H; cbn [concat_options]; [discriminate| |exfalso; apply (H None); [now left|reflexivity]].
    destruct (concat_options l); [discriminate|]. intros _. apply IH; [intros b J; apply H; now right|reflexivity].
  Qed.
  Lemma part_some c x k g make : gen_update (nb_addr nb) (now x) (ck_accept c) g <> None -> part nb c x k g make <> None.
  Proof. unfold part. destruct (ck_enabled c k); [|discriminate]. change (nb_vars nb) with vs. destruct (gen_update _ _ _ _); [discriminate|congruence]. Qed.
  Lemma offer_some c x : offer nb c x <> None.
  Proof.
    unfold offer. apply concat_some. intros a J. apply in_app_iff in J as [J|J]; [|apply in_app_iff in J as [J|J]].
    - destruct J as [<-|[<-|[<-|[]]]]; [apply part_some; discriminate|apply part_some; discriminate|discriminate].
    - apply in_map_iff in J as ([k g] & <- & Jg). cbn [fst snd]. apply part_some. cbn [nb nb_special setup_neighborhood] in Jg. apply in_map_iff in Jg as ([k' ty] & Eg & Jg). injection Eg as -> <-. cbn [snd].
      apply filter_In in Jg as [Jg _]. unfold setup_special. cbn [gen_update]. destruct (concat_options _) as [l|] eqn:E; [discriminate|]. exfalso. revert E. apply concat_some.
      intros b Jb. apply in_map_iff in Jb as ([d key] & <- & Jd). cbn [fst snd]. apply filter_In in Jd as [Jd Ef]. cbn [fst] in Ef. unfold effective in Ef. apply andb_true_iff in Ef as [En _].
      destruct (item_in _ _ _ _ _ Jd) as [Ic Ec]. destruct (sr_tidy _ _ _ Rd d Ic En) as (W & _ & Nz).
      destruct (moves_defined (su_addr su) _ d ty key (fun v => va_value (now x v)) W Ec) as [l El]; [|exact Nz|].
      + unfold special_types in Jg. unfold special. cbn [In] in *. repeat (destruct Jg as [Jg|Jg]; [injection Jg as _ <-; tauto|]). destruct Jg.
      + cbn [nb nb_addr setup_neighborhood]. congruence.
    - destruct J as [<-|[<-|[]]]; [destruct (ck_enabled c 15); discriminate|apply part_some; discriminate].
  Qed.
End Offer.
