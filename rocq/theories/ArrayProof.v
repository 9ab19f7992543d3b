(** Proofs about arrays: indices and slices. *)
From Coq Require Import List ZArith QArith Bool Lia Lqa String.
From Verif Require Import PresolveModel ExprModel ExprProof VariableModel VariableSpec VariableProof ArrayModel ArraySpec.
Import ListNotations.
Local Open Scope Z_scope.

(** ** The stored indices are all indices in lexicographic order *)
Fixpoint every (shape : list Z) : list (list Z) :=
  match shape with [] => [[]] | n :: s => flat_map (fun k => map (cons k) (every s)) (upto (Z.to_nat n) 0) end.
Lemma upto_seq n : forall k, upto n (Z.of_nat k) = map Z.of_nat (seq k n).
Proof. induction n as [|n IH]; intros k; [reflexivity|]. cbn [upto seq map]. f_equal. rewrite <- IH. f_equal. lia. Qed.
Lemma seq_mul n p : seq 0 (n * p) = flat_map (fun k => map (fun r => k * p + r)%nat (seq 0 p)) (seq 0 n).
Proof.
  induction n as [|n IH]; [reflexivity|]. rewrite seq_S, flat_map_app. cbn [flat_map Nat.add]. rewrite app_nil_r, <- IH.
  replace (S n * p)%nat with (n * p + p)%nat by lia. rewrite seq_app. f_equal. cbn [Nat.add]. clear. generalize (n * p)%nat as b. intros b. rewrite <- (Nat.add_0_r b) at 1. generalize 0%nat as s. induction p as [|p IH]; intros s; [reflexivity|]. cbn [seq map]. f_equal. rewrite <- Nat.add_succ_r. apply IH.
Qed.
Lemma map_flat {A B C} (f : B -> C) (g : A -> list B) l : map f (flat_map g l) = flat_map (fun a => map f (g a)) l.
Proof. induction l as [|a l IH]; [reflexivity|]. cbn. now rewrite map_app, IH. Qed.
Lemma flat_ext {A B} (f g : A -> list B) l : (forall a, In a l -> f a = g a) -> flat_map f l = flat_map g l.
Proof. induction l as [|a l IH]; intros H; [reflexivity|]. cbn. rewrite (H a (or_introl eq_refl)), IH by (intros; apply H; now right). reflexivity. Qed.
Lemma flat_map_map {A B C} (f : A -> B) (g : B -> list C) l : flat_map g (map f l) = flat_map (fun a => g (f a)) l.
Proof. induction l as [|a l IH]; [reflexivity|]. cbn. now rewrite IH. Qed.
Lemma prod_pos shape : Forall (fun n => 0 < n) shape -> 0 < prod shape.
Proof. intros H. induction H; cbn [prod]; nia. Qed.
Lemma unflatten_every shape : Forall (fun n => 0 < n) shape -> map (fun i => unflatten (suffix shape) (Z.of_nat i)) (seq 0 (Z.to_nat (prod shape))) = every shape.
Proof.
  induction shape as [|n s IH]; intros H; [reflexivity|]. inversion H as [|? ? Hn Hs]; subst. pose proof (prod_pos s Hs) as P. cbn [prod suffix every].
  replace (Z.to_nat (n * prod s)) with (Z.to_nat n * Z.to_nat (prod s))%nat by nia. rewrite seq_mul, map_flat. change 0 with (Z.of_nat 0). rewrite upto_seq, flat_map_map.
  apply flat_ext. intros k Hk. apply in_seq in Hk. rewrite <- (IH Hs), !map_map. apply map_ext_in. intros r Hr. apply in_seq in Hr. cbn [unflatten].
  rewrite Z.quot_div_nonneg, Z.rem_mod_nonneg by nia. replace (Z.of_nat (k * Z.to_nat (prod s) + r)) with (Z.of_nat k * prod s + Z.of_nat r) by nia.
  rewrite Z.div_add_l, Z.div_small by lia. rewrite (Z.add_comm (Z.of_nat k * prod s)), Z_mod_plus_full, Z.mod_small by lia. now rewrite Z.add_0_r.
Qed.
Lemma stored_every shape : good_shape shape -> stored shape = every shape.
Proof. intros [N P]. unfold stored, multi_index. rewrite (strides_suffix shape N), elements_prod. now apply unflatten_every. Qed.
Lemma every_length shape idx : In idx (every shape) -> List.length idx = List.length shape.
Proof.
  revert idx. induction shape as [|n s IH]; intros idx H; [destruct H as [<- |[]]; reflexivity|]. cbn [every] in H. apply in_flat_map in H. destruct H as (k & _ & H). apply in_map_iff in H. destruct H as (t & <- & H). cbn. now rewrite (IH t H).
Qed.

(** ** Matching *)
Fixpoint matches (idx pat : list Z) : bool :=
  match idx, pat with [], [] => true | k :: idx', p :: pat' => ((p =? All) || (p =? k)) && matches idx' pat' | _, _ => false end.
Lemma covered_matches pat : forall pre idx, List.length idx = List.length pat -> covered (pre ++ idx) pat (List.length pre) = Ok (matches idx pat).
Proof.
  induction pat as [|p pat IH]; intros pre [|k idx] L; try discriminate; [reflexivity|]. cbn [covered matches]. cbn [List.length] in L. injection L as L.
  assert (E : covered (pre ++ k :: idx) pat (S (List.length pre)) = Ok (matches idx pat)).
  { replace (pre ++ k :: idx) with ((pre ++ [k]) ++ idx) by (now rewrite <- app_assoc). replace (S (List.length pre)) with (List.length (pre ++ [k])) by (rewrite app_length; cbn; lia). now apply IH. }
  destruct (Z.eqb_spec p All) as [-> |Np]; [exact E|]. rewrite nth_error_app2, Nat.sub_diag by lia. cbn [nth_error]. rewrite (Z.eqb_sym k p). destruct (p =? k); [exact E|reflexivity].
Qed.
Lemma filter_map_cons k l pat p : filter (fun idx => matches idx (p :: pat)) (map (cons k) l) = if (p =? All) || (p =? k) then map (cons k) (filter (fun idx => matches idx pat) l) else [].
Proof.
  induction l as [|t l IH]; cbn [map filter matches]; [now destruct ((p =? All) || (p =? k))|]. cbn [matches] in IH. rewrite IH.
  destruct ((p =? All) || (p =? k)); cbn [andb]; [|reflexivity]. destruct (matches t pat); reflexivity.
Qed.
Lemma slice_filter shape : forall pat, List.length pat = List.length shape -> slice shape pat = filter (fun idx => matches idx pat) (every shape).
Proof.
  induction shape as [|n s IH]; intros [|p pat] L; try discriminate; [reflexivity|]. cbn [slice every]. cbn [List.length] in L. injection L as L.
  generalize (upto (Z.to_nat n) 0) as l. induction l as [|k l IHl]; [reflexivity|]. cbn [flat_map]. rewrite filter_app, IHl, filter_map_cons. f_equal. now rewrite (IH pat L).
Qed.
Lemma collect_spec pat : forall idxs i, (forall idx, In idx idxs -> List.length idx = List.length pat) ->
  exists l, collect idxs pat i = Ok l /\ NoDup l /\ (forall p, In p l -> i <= p < i + List.length idxs)%nat /\ map (fun p => nth (p - i) idxs []) l = filter (fun idx => matches idx pat) idxs.
Proof.
  induction idxs as [|idx idxs IH]; intros i H; [exists []; split; [reflexivity|]; split; [constructor|]; split; [intros ? []|reflexivity]|]. cbn [collect].
  pose proof (covered_matches pat [] idx (H idx (or_introl eq_refl))) as C. cbn [app List.length] in C. rewrite C. cbn [bind].
  destruct (IH (S i)) as (l & E & N & R & M); [intros; apply H; now right|]. rewrite E. cbn [bind filter].
  assert (M2 : map (fun p => nth (p - i) (idx :: idxs) []) l = filter (fun idx => matches idx pat) idxs).
  { rewrite <- M. apply map_ext_in. intros p Hp. specialize (R p Hp). replace (p - i)%nat with (S (p - S i)) by lia. reflexivity. }
  destruct (matches idx pat).
  - exists (i :: l). split; [reflexivity|]. split; [constructor; [intros I; specialize (R i I); lia|exact N]|]. split; [intros p [<- |I]; [cbn; lia|specialize (R p I); cbn; lia]|]. cbn [map]. rewrite Nat.sub_diag, M2. reflexivity.
  - exists l. split; [reflexivity|]. split; [exact N|]. split; [intros p I; specialize (R p I); cbn; lia|exact M2].
Qed.

(** ** Positions *)
Lemma position_stored shape i : good_shape shape -> (i < List.length (stored shape))%nat -> position shape (nth i (stored shape) []) = Ok i.
Proof.
  intros [N P] Hi. unfold stored in *. rewrite map_length, seq_length in Hi. rewrite (nth_indep _ [] (multi_index shape (Z.of_nat 0))) by (rewrite map_length, seq_length; exact Hi).
  rewrite (map_nth (fun i => multi_index shape (Z.of_nat i))), seq_nth by exact Hi. cbn [Nat.add]. destruct (index_bijection shape N P) as [_ B]. destruct (B (Z.of_nat i)) as [R F]; [lia|].
  unfold position. rewrite F. assert (L : List.length shape = List.length (multi_index shape (Z.of_nat i))) by (clear -R; unfold in_range in R; induction R; cbn; congruence).
  rewrite (proj2 (Nat.eqb_eq _ _) L). cbn [negb]. rewrite (proj2 (Z.leb_le _ _)), (proj2 (Z.ltb_lt _ _)) by lia. cbn. f_equal. lia.
Qed.
Lemma position_throws shape idx : List.length idx <> List.length shape -> position shape idx = Throw.
Proof. intros H. unfold position. rewrite (proj2 (Nat.eqb_neq _ _)) by congruence. reflexivity. Qed.
Lemma position_in_range shape idx : good_shape shape -> in_range shape idx -> exists p, position shape idx = Ok p /\ (p < Z.to_nat (number_of_elements shape))%nat.
Proof.
  intros [N P] R. destruct (index_bijection shape N P) as [B _]. destruct (B idx R) as (f & F & Hf & _). unfold position. rewrite F.
  assert (L : List.length shape = List.length idx) by (clear -R; unfold in_range in R; induction R; cbn; congruence). rewrite (proj2 (Nat.eqb_eq _ _) L). cbn [negb].
  rewrite (proj2 (Z.leb_le _ _)), (proj2 (Z.ltb_lt _ _)) by lia. cbn. exists (Z.to_nat f). split; [reflexivity|lia].
Qed.
(** The collected positions are those of the slice. *)
Lemma slice_positions shape pat : good_shape shape -> List.length pat = List.length shape ->
  exists l, collect (stored shape) pat 0 = Ok l /\ NoDup l /\ (forall p, In p l -> p < List.length (stored shape))%nat /\ map (position shape) (slice shape pat) = map Ok l.
Proof.
  intros G L. destruct (collect_spec pat (stored shape) 0) as (l & E & N & R & M).
  { intros idx H. rewrite (stored_every shape G) in H. rewrite (every_length shape idx H). now symmetry. }
  exists l. split; [exact E|]. split; [exact N|]. split; [intros p I; specialize (R p I); lia|]. rewrite (slice_filter shape pat L), <- (stored_every shape G), <- M, map_map. apply map_ext_in. intros p I. specialize (R p I). rewrite Nat.sub_0_r. apply position_stored; [exact G|lia].
Qed.
Lemma stored_length shape : List.length (stored shape) = Z.to_nat (number_of_elements shape).
Proof. unfold stored. now rewrite map_length, seq_length. Qed.
Lemma matches_all (shape : list Z) : forall idx, List.length idx = List.length shape -> matches idx (map (fun _ => All) shape) = true.
Proof. induction shape as [|n s IH]; intros [|k idx] H; try discriminate; [reflexivity|]. cbn [map matches]. rewrite Z.eqb_refl. cbn [orb andb]. apply IH. now injection H. Qed.
Lemma all_positions shape : good_shape shape -> map (position shape) (slice shape (map (fun _ => All) shape)) = map Ok (seq 0 (Z.to_nat (number_of_elements shape))).
Proof.
  intros G. assert (E : slice shape (map (fun _ => All) shape) = stored shape).
  { rewrite slice_filter by apply map_length. rewrite (stored_every shape G). assert (H : forall idx, In idx (every shape) -> matches idx (map (fun _ => All) shape) = true).
    { intros idx H. apply matches_all. now apply every_length. }
    clear -H. induction (every shape) as [|t l IH]; [reflexivity|]. cbn [filter]. rewrite (H t (or_introl eq_refl)), IH by (intros; apply H; now right). reflexivity. }
  rewrite E. unfold stored at 1. assert (K : forall i, In i (seq 0 (Z.to_nat (number_of_elements shape))) -> position shape (multi_index shape (Z.of_nat i)) = Ok i).
  { intros i Hi. apply in_seq in Hi. rewrite <- (position_stored shape i G) by (rewrite stored_length; lia). f_equal. unfold stored. rewrite (nth_indep _ [] (multi_index shape (Z.of_nat 0))) by (rewrite map_length, seq_length; lia).
    rewrite (map_nth (fun i => multi_index shape (Z.of_nat i))), seq_nth by lia. reflexivity. }
  rewrite map_map. apply map_ext_in. exact K.
Qed.
