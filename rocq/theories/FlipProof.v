From Coq Require Import List ZArith QArith Bool String Lia Permutation Sorted.
From Verif Require Import TextModel FlipModel FlipSpec NamesModel NamesSpec TextProof TextProof2 NamesProof NamesProof3.
Import ListNotations.
Local Open Scope list_scope.

Lemma existsb_in a l : existsb (Nat.eqb a) l = true <-> In a l.
Proof. rewrite existsb_exists. split; [intros (b & I & E); apply Nat.eqb_eq in E; subst; exact I|intros I; exists a; split; [exact I|apply Nat.eqb_refl]]. Qed.
Lemma insert_all_in l : forall acc x, In x (insert_all l acc) <-> In x l \/ In x acc.
Proof.
  induction l as [|a tl IH]; intros acc x; cbn [insert_all In]; [tauto|]. rewrite IH.
  destruct (existsb (Nat.eqb a) acc) eqn:E.
  - apply existsb_in in E. split; [tauto|]. intros [[<-|I]|I]; auto.
  - rewrite in_app_iff. cbn. tauto.
Qed.
Lemma insert_all_nodup l : forall acc, NoDup acc -> NoDup (insert_all l acc).
Proof.
  induction l as [|a tl IH]; intros acc N; cbn [insert_all]; [exact N|]. apply IH.
  destruct (existsb (Nat.eqb a) acc) eqn:E; [exact N|]. apply (Permutation_NoDup (l := a :: acc)); [apply Permutation_cons_append|].
  constructor; [|exact N]. intros I. apply existsb_in in I. congruence.
Qed.
Lemma related_from_in cs : forall k v x, In x (related_from cs k v) <-> exists j c, x = (k + j)%nat /\ nth_error cs j = Some c /\ In v (fc_vars c).
Proof.
  induction cs as [|c tl IH]; intros k v x; cbn [related_from].
  - split; [intros []|]. intros (j & c & _ & E & _). destruct j; discriminate.
  - assert (R : In x (related_from tl (S k) v) <-> exists j c0, x = (k + S j)%nat /\ nth_error (c :: tl) (S j) = Some c0 /\ In v (fc_vars c0)).
    { rewrite IH. split; intros (j & d & E & F & G); exists j, d; (split; [lia|]); auto. }
    destruct (existsb (Nat.eqb v) (fc_vars c)) eqn:E.
    + apply existsb_in in E. cbn [In]. rewrite R. split.
      * intros [<-|(j & d & H)]; [exists 0%nat, c; split; [lia|auto]|exists (S j), d; exact H].
      * intros (j & d & X & H & G). destruct j as [|j]; [left; lia|right; exists j, d; auto].
    + rewrite R. split; [intros (j & d & H); exists (S j), d; exact H|]. intros (j & d & X & H & G).
      destruct j as [|j]; [|exists j, d; auto]. injection H as <-. apply existsb_in in G. congruence.
Qed.
Lemma related_from_nodup cs : forall k v, NoDup (related_from cs k v).
Proof.
  induction cs as [|c tl IH]; intros k v; cbn [related_from]; [constructor|].
  destruct (existsb (Nat.eqb v) (fc_vars c)); [|apply IH]. constructor; [|apply IH]. intros I. apply related_from_in in I. destruct I as (j & d & E & _). lia.
Qed.
Lemma related_in m v k : In k (related m v) <-> in_constraint m v k.
Proof.
  unfold related, in_constraint. rewrite related_from_in. split; [intros (j & c & -> & E & I); exists c; auto|intros (c & E & I); exists k, c; auto].
Qed.
Lemma related_nodup m v : NoDup (related m v). Proof. apply related_from_nodup. Qed.
Lemma member_in l a : member l a = true <-> In a l. Proof. apply existsb_in. Qed.
Lemma intersection_in a b x : In x (intersection_set a b) <-> In x a /\ In x b.
Proof. unfold intersection_set. destruct (Nat.ltb _ _); rewrite filter_In, member_in; tauto. Qed.
Lemma intersection_nodup a b : NoDup a -> NoDup b -> NoDup (intersection_set a b).
Proof. intros A B. unfold intersection_set. destruct (Nat.ltb _ _); apply NoDup_filter; assumption. Qed.
Lemma set_of_related m v : NoDup (insert_all (related m v) []) /\ forall k, In k (insert_all (related m v) []) <-> in_constraint m v k.
Proof. split; [apply insert_all_nodup; constructor|]. intros k. rewrite insert_all_in, related_in. cbn. tauto. Qed.
Lemma common_size m i j : has_size (fun k => in_constraint m i k /\ in_constraint m j k)
  (Z.of_nat (List.length (intersection_set (insert_all (related m i) []) (insert_all (related m j) [])))).
Proof.
  destruct (set_of_related m i) as [A1 A2], (set_of_related m j) as [B1 B2]. eexists. split; [apply intersection_nodup; [exact A1|exact B1]|].
  split; [|reflexivity]. intros k. rewrite intersection_in, A2, B2. tauto.
Qed.
Lemma union_size m i j : has_size (fun k => in_constraint m i k \/ in_constraint m j k)
  (Z.of_nat (List.length (union_set (insert_all (related m i) []) (insert_all (related m j) [])))).
Proof.
  destruct (set_of_related m i) as [A1 A2], (set_of_related m j) as [B1 B2]. unfold union_set. eexists. split; [apply insert_all_nodup; exact A1|].
  split; [|reflexivity]. intros k. rewrite insert_all_in, A2, B2. tauto.
Qed.
Lemma has_size_unique P a b : has_size P a -> has_size P b -> a = b.
Proof.
  intros (l & N & M & <-) (l' & N' & M' & <-). f_equal. apply Permutation_length. apply NoDup_Permutation; [exact N|exact N'|]. intros x. rewrite M, M'. tauto.
Qed.
Lemma candidates_in m minimum v : In v (candidates m minimum) <-> flippable m v /\ (minimum <= Z.of_nat (List.length (related m v)))%Z.
Proof.
  unfold candidates. rewrite insert_all_in, in_flat_map. cbn [In].
  assert (C : candidate m minimum v = true <-> (exists a, nth_error (fst m) v = Some a /\ fv_fixed a = false /\ fv_sense a <> FsOther) /\ (minimum <= Z.of_nat (List.length (related m v)))%Z).
  { unfold candidate. destruct (nth_error (fst m) v) as [a|].
    - rewrite !andb_true_iff, negb_true_iff, Z.leb_le. split.
      + intros [[F S'] L]. split; [|exact L]. exists a. split; [reflexivity|]. split; [exact F|]. destruct (fv_sense a); congruence.
      + intros [(b & [= <-] & F & S') L]. split; [|exact L]. split; [exact F|]. destruct (fv_sense a); congruence.
    - split; [discriminate|]. intros [(b & H & _) _]. discriminate. }
  split.
  - intros [(c & I & H)|[]]. destruct (fc_enabled c) eqn:E; [|contradiction]. apply filter_In in H. destruct H as [H K]. apply C in K. destruct K as [K L].
    split; [|exact L]. split; [exact K|]. apply In_nth_error in I. destruct I as [k I]. exists k, c. auto.
  - intros [[K (k & c & E & F & G)] L]. left. exists c. split; [apply (nth_error_In _ _ E)|]. rewrite F. apply filter_In. split; [exact G|]. apply C. auto.
Qed.
Lemma candidates_nodup m minimum : NoDup (candidates m minimum). Proof. apply insert_all_nodup. constructor. Qed.

(** ** The pairs *)
Definition key (p : fpair) : nat * nat := (fp_first p, fp_second p).
Definition good_pair (m : fmodel) (minimum : Z) (p : fpair) : Prop :=
  has_size (fun k => in_constraint m (fp_first p) k /\ in_constraint m (fp_second p) k) (fp_common p) /\ (minimum <= fp_common p)%Z /\
  exists u, has_size (fun k => in_constraint m (fp_first p) k \/ in_constraint m (fp_second p) k) (Z.of_nat u) /\ fp_rate p = Qmake (fp_common p) (Pos.of_nat u).
Lemma pair_of_in m minimum i j p : In p (pair_of m minimum i j) -> key p = (i, j) /\ good_pair m minimum p.
Proof.
  unfold pair_of. destruct (Z.leb_spec minimum (Z.of_nat (List.length (intersection_set (insert_all (related m i) []) (insert_all (related m j) []))))) as [L|L]; [|intros []].
  intros [<-|[]]. split; [reflexivity|]. split; [apply common_size|]. split; [exact L|].
  exists (List.length (union_set (insert_all (related m i) []) (insert_all (related m j) []))). split; [apply union_size|reflexivity].
Qed.
Lemma pair_of_some m minimum i j n : has_size (fun k => in_constraint m i k /\ in_constraint m j k) n -> (minimum <= n)%Z -> exists p, In p (pair_of m minimum i j) /\ key p = (i, j).
Proof.
  intros H L. pose proof (has_size_unique _ _ _ H (common_size m i j)) as E. unfold pair_of. rewrite <- E.
  apply Z.leb_le in L. rewrite L. eexists. split; [left; reflexivity|reflexivity].
Qed.
Lemma pair_of_keys m minimum i j : map key (pair_of m minimum i j) = [] \/ map key (pair_of m minimum i j) = [(i, j)].
Proof. unfold pair_of. destruct (_ <=? _)%Z; [right|left]; reflexivity. Qed.
Lemma keys_of_row m minimum i tl a b : In (a, b) (map key (flat_map (pair_of m minimum i) tl)) -> a = i /\ In b tl.
Proof.
  intros I. apply in_map_iff in I. destruct I as (p & E & I). apply in_flat_map in I. destruct I as (j & J & I). apply pair_of_in in I. destruct I as [K _].
  rewrite K in E. injection E as <- <-. auto.
Qed.
Lemma row_nodup m minimum i tl : NoDup tl -> NoDup (map key (flat_map (pair_of m minimum i) tl)).
Proof.
  induction tl as [|j tl IH]; intros N; cbn [flat_map map]; [constructor|]. inversion N as [|? ? N1 N2]; subst. rewrite map_app.
  destruct (pair_of_keys m minimum i j) as [->| ->]; [apply IH; exact N2|]. cbn [app]. constructor; [|apply IH; exact N2].
  intros I. apply keys_of_row in I. tauto.
Qed.
Lemma keys_in m minimum vs : forall a b, In (a, b) (map key (pairs_from m minimum vs)) -> In a vs /\ In b vs.
Proof.
  induction vs as [|i tl IH]; intros a b; cbn [pairs_from]; [intros []|]. rewrite map_app, in_app_iff. intros [I|I].
  - apply keys_of_row in I. destruct I as [-> I]. split; [left; reflexivity|right; exact I].
  - destruct (IH a b I). split; right; assumption.
Qed.
Lemma keys_nodup m minimum vs : NoDup vs -> NoDup (map key (pairs_from m minimum vs)).
Proof.
  induction vs as [|i tl IH]; intros N; cbn [pairs_from]; [constructor|]. inversion N as [|? ? N1 N2]; subst. rewrite map_app.
  assert (A : forall l1 l2 : list (nat * nat), NoDup l1 -> NoDup l2 -> (forall x, In x l1 -> ~ In x l2) -> NoDup (l1 ++ l2)).
  { clear. intros l1 l2 A B C. induction A as [|x l1 H A IH]; [exact B|]. cbn [app]. constructor.
    - rewrite in_app_iff. intros [I|I]; [contradiction|]. exact (C x (or_introl eq_refl) I).
    - apply IH. intros y I. apply C. right. exact I. }
  apply A; [apply row_nodup; exact N2|apply IH; exact N2|]. intros [a b] I J. apply keys_of_row in I. destruct I as [-> I]. apply keys_in in J. tauto.
Qed.
Lemma keys_not_reversed m minimum vs : NoDup vs -> forall a b, In (a, b) (map key (pairs_from m minimum vs)) -> ~ In (b, a) (map key (pairs_from m minimum vs)).
Proof.
  induction vs as [|i tl IH]; intros N a b; cbn [pairs_from]; [intros []|]. inversion N as [|? ? N1 N2]; subst. rewrite map_app, !in_app_iff.
  intros [I|I] [J|J].
  - apply keys_of_row in I, J. destruct I as [-> I]. destruct J as [-> J]. contradiction.
  - apply keys_of_row in I. destruct I as [-> I]. apply keys_in in J. tauto.
  - apply keys_of_row in J. destruct J as [-> J]. apply keys_in in I. tauto.
  - exact (IH N2 a b I J).
Qed.
Lemma pairs_good m minimum vs : forall p, In p (pairs_from m minimum vs) -> good_pair m minimum p.
Proof.
  induction vs as [|i tl IH]; intros p; cbn [pairs_from]; [intros []|]. rewrite in_app_iff. intros [I|I]; [|exact (IH p I)].
  apply in_flat_map in I. destruct I as (j & _ & I). apply pair_of_in in I. apply I.
Qed.
Lemma pairs_complete m minimum vs n : forall a b, a <> b -> In a vs -> In b vs -> has_size (fun k => in_constraint m a k /\ in_constraint m b k) n -> (minimum <= n)%Z ->
  exists p, In p (pairs_from m minimum vs) /\ (key p = (a, b) \/ key p = (b, a)).
Proof.
  induction vs as [|i tl IH]; intros a b Ne A B H L; [contradiction|]. cbn [pairs_from].
  assert (H' : has_size (fun k => in_constraint m b k /\ in_constraint m a k) n).
  { destruct H as (l & N & M & E). exists l. split; [exact N|]. split; [|exact E]. intros k. rewrite M. tauto. }
  destruct A as [->|A]; [destruct B as [->|B]; [contradiction|]|destruct B as [->|B]].
  - destruct (pair_of_some m minimum a b n H L) as (p & I & K). exists p. split; [|left; exact K]. apply in_or_app. left. apply in_flat_map. exists b. auto.
  - destruct (pair_of_some m minimum b a n H' L) as (p & I & K). exists p. split; [|right; exact K]. apply in_or_app. left. apply in_flat_map. exists a. auto.
  - destruct (IH a b Ne A B H L) as (p & I & K). exists p. split; [|exact K]. apply in_or_app. right. exact I.
Qed.

(** ** Sorting *)
Lemma insert_pair_perm p l : Permutation (insert_pair p l) (p :: l).
Proof.
  induction l as [|q tl IH]; cbn [insert_pair]; [reflexivity|]. destruct (Qlt_le_dec (fp_rate p) (fp_rate q)); [|reflexivity].
  rewrite IH. apply perm_swap.
Qed.
Lemma sort_perm l : Permutation (sort_pairs l) l.
Proof. induction l as [|p tl IH]; cbn [sort_pairs fold_right]; [reflexivity|]. rewrite insert_pair_perm. constructor. exact IH. Qed.
Lemma insert_pair_sorted p l : StronglySorted (fun a b => fp_rate b <= fp_rate a)%Q l -> StronglySorted (fun a b => fp_rate b <= fp_rate a)%Q (insert_pair p l).
Proof.
  intros H. induction H as [|q tl H IH F]; cbn [insert_pair]; [repeat constructor|].
  destruct (Qlt_le_dec (fp_rate p) (fp_rate q)) as [L|L].
  - constructor; [exact IH|]. apply (Permutation_Forall (Permutation_sym (insert_pair_perm p tl))). constructor; [apply Qlt_le_weak; exact L|exact F].
  - constructor; [constructor; assumption|]. constructor; [exact L|]. eapply Forall_impl; [|exact F]. intros r R. exact (Qle_trans _ _ _ R L).
Qed.
Lemma sort_sorted l : StronglySorted (fun a b => fp_rate b <= fp_rate a)%Q (sort_pairs l).
Proof. induction l as [|p tl IH]; cbn [sort_pairs fold_right]; [constructor|]. apply insert_pair_sorted. exact IH. Qed.
Lemma sorted_nth {A} (R : A -> A -> Prop) l : StronglySorted R l -> forall a b p q, (a < b)%nat -> nth_error l a = Some p -> nth_error l b = Some q -> R p q.
Proof.
  intros H. induction H as [|x tl H IH F]; intros a b p q L E G; [destruct a; discriminate|].
  destruct a as [|a]; destruct b as [|b]; try lia; cbn in E, G.
  - injection E as <-. rewrite Forall_forall in F. apply F. exact (nth_error_In _ _ G).
  - apply (IH a b); [lia|exact E|exact G].
Qed.

(** ** The theorem *)
Lemma rate_facts m minimum order p : Permutation order (candidates m minimum) -> In p (pairs_from m minimum order) ->
  exists u, has_size (fun k => in_constraint m (fp_first p) k \/ in_constraint m (fp_second p) k) u /\ (0 < u)%Z /\ (fp_rate p * inject_Z u == inject_Z (fp_common p))%Q.
Proof.
  intros P I. destruct (pairs_good m minimum order p I) as (_ & _ & u & U & R). exists (Z.of_nat u). split; [exact U|].
  assert (C : In (fp_first p) (candidates m minimum)).
  { apply (Permutation_in _ P). apply (keys_in m minimum order (fp_first p) (fp_second p)). apply in_map_iff. exists p. auto. }
  apply candidates_in in C. destruct C as [[_ (k & c & E & _ & G)] _].
  assert (Pos : (0 < Z.of_nat u)%Z).
  { destruct U as (l & _ & M & E'). destruct l as [|x l]; [|cbn in E'; lia]. exfalso. apply (proj2 (M k)). left. exists c. auto. }
  split; [exact Pos|]. rewrite R. unfold Qeq, Qmult, inject_Z. cbn [Qnum Qden].
  assert (E' : Z.pos (Pos.of_nat u) = Z.of_nat u) by (rewrite <- positive_nat_Z, Nat2Pos.id by lia; reflexivity).
  rewrite <- E'. rewrite Z.mul_1_r. rewrite Pos.mul_1_r. reflexivity.
Qed.
Lemma extracted m minimum order : Permutation order (candidates m minimum) -> let l := extract_pairs m minimum order in
  (forall i j, i <> j -> ((exists p, In p l /\ (key p = (i, j) \/ key p = (j, i))) <->
     flippable m i /\ flippable m j /\ exists n, has_size (fun k => in_constraint m i k /\ in_constraint m j k) n /\ (minimum <= n)%Z)) /\
  NoDup (map key l) /\ (forall i j, In (i, j) (map key l) -> ~ In (j, i) (map key l)) /\
  (forall p, In p l -> has_size (fun k => in_constraint m (fp_first p) k /\ in_constraint m (fp_second p) k) (fp_common p) /\
     exists u, has_size (fun k => in_constraint m (fp_first p) k \/ in_constraint m (fp_second p) k) u /\ (0 < u)%Z /\ (fp_rate p * inject_Z u == inject_Z (fp_common p))%Q) /\
  (forall a b p q, (a < b)%nat -> nth_error l a = Some p -> nth_error l b = Some q -> (fp_rate q <= fp_rate p)%Q).
Proof.
  intros P l. assert (N : NoDup order) by (apply (Permutation_NoDup (Permutation_sym P)), candidates_nodup).
  pose proof (sort_perm (pairs_from m minimum order)) as SP. fold (extract_pairs m minimum order) in SP. fold l in SP.
  pose proof (Permutation_map key SP) as KP.
  assert (InL : forall p, In p l <-> In p (pairs_from m minimum order)) by (intros p; split; [apply (Permutation_in _ SP)|apply (Permutation_in _ (Permutation_sym SP))]).
  assert (InK : forall x, In x (map key l) <-> In x (map key (pairs_from m minimum order))) by (intros x; split; [apply (Permutation_in _ KP)|apply (Permutation_in _ (Permutation_sym KP))]).
  split; [|split; [|split; [|split]]].
  - intros i j Ne. split.
    + intros (p & I & K). apply InL in I. pose proof (pairs_good m minimum order p I) as (Sz & L & _).
      destruct (keys_in m minimum order (fp_first p) (fp_second p)) as [A B]; [apply in_map_iff; exists p; auto|].
      apply (Permutation_in _ P) in A. apply (Permutation_in _ P) in B. apply candidates_in in A, B.
      destruct K as [K|K]; injection K as K1 K2; rewrite K1, K2 in *.
      * split; [apply A|]. split; [apply B|]. exists (fp_common p). auto.
      * split; [apply B|]. split; [apply A|]. exists (fp_common p). split; [|exact L]. destruct Sz as (s & S1 & S2 & S3). exists s. split; [exact S1|]. split; [|exact S3]. intros k. rewrite S2. tauto.
    + intros (Fi & Fj & n & H & L).
      assert (Big : forall a, (forall k, in_constraint m i k /\ in_constraint m j k -> in_constraint m a k) -> (minimum <= Z.of_nat (List.length (related m a)))%Z).
      { intros a Sub. destruct H as (s & S1 & S2 & S3). apply Z.le_trans with (1 := L). rewrite <- S3. apply inj_le. apply NoDup_incl_length; [exact S1|].
        intros k Ik. apply related_in, Sub, S2. exact Ik. }
      destruct (pairs_complete m minimum order n i j Ne) as (p & I & K); [| |exact H|exact L|exists p; split; [apply InL; exact I|exact K]].
      * apply (Permutation_in _ (Permutation_sym P)), candidates_in. split; [exact Fi|]. apply Big. tauto.
      * apply (Permutation_in _ (Permutation_sym P)), candidates_in. split; [exact Fj|]. apply Big. tauto.
  - apply (Permutation_NoDup (Permutation_sym KP)), keys_nodup, N.
  - intros i j I J. apply InK in I, J. exact (keys_not_reversed m minimum order N i j I J).
  - intros p I. apply InL in I. split; [apply (pairs_good m minimum order p I)|apply (rate_facts m minimum order p P I)].
  - intros a b p q. apply (sorted_nth (fun a b => fp_rate b <= fp_rate a)%Q). apply sort_sorted.
Qed.

(** ** The file *)
Lemma words_space w t : word w -> items_of (append w (append " " t)) = w :: items_of t.
Proof. intros W. apply split_word_space; [exact W|reflexivity]. Qed.
Lemma line_items m p : plain_name (name_at m (fp_first p)) -> plain_name (name_at m (fp_second p)) ->
  items_of (pair_line m p) = [name_at m (fp_first p); name_at m (fp_second p); print_int (Z.of_nat (List.length (related m (fp_first p))));
    print_int (Z.of_nat (List.length (related m (fp_second p)))); print_int (fp_common p); print_double (fp_rate p)].
Proof.
  intros A B. unfold pair_line. rewrite !words_space by (apply plain_word; assumption). do 2 f_equal.
  rewrite !words_space by apply print_int_word. do 3 f_equal.
  change (append (print_double (fp_rate p)) " ") with (append (print_double (fp_rate p)) (append " " EmptyString)).
  rewrite words_space by apply print_double_word. reflexivity.
Qed.
Lemma pairs_read m l : (forall p, In p l -> plain_name (name_at m (fp_first p)) /\ plain_name (name_at m (fp_second p))) ->
  read_name_pairs (write_pairs m l) = map (fun p => (name_at m (fp_first p), name_at m (fp_second p))) l.
Proof.
  induction l as [|p tl IH]; intros H; [reflexivity|]. unfold read_name_pairs, write_pairs in *. cbn [map flat_map].
  destruct (H p (or_introl eq_refl)) as [A B]. rewrite (line_items m p A B). cbn [app]. f_equal. apply IH. intros q I. apply H. right. exact I.
Qed.
Lemma in_pairs m minimum order p : Permutation order (candidates m minimum) -> In p (extract_pairs m minimum order) ->
  (exists a, nth_error (fst m) (fp_first p) = Some a) /\ exists b, nth_error (fst m) (fp_second p) = Some b.
Proof.
  intros P I. apply (Permutation_in _ (sort_perm _)) in I.
  destruct (keys_in m minimum order (fp_first p) (fp_second p)) as [A B]; [apply in_map_iff; exists p; auto|].
  apply (Permutation_in _ P), candidates_in in A. apply (Permutation_in _ P), candidates_in in B.
  destruct A as [[(a & A & _) _] _]. destruct B as [[(b & B & _) _] _]. eauto.
Qed.
Lemma described_exact names : NoDup names -> forall lines l, described names lines l ->
  forall l', Forall2 (fun line (p : nat * nat) => exists a b, gives line a b /\ nth_error names (fst p) = Some a /\ nth_error names (snd p) = Some b) lines l' -> l = l'.
Proof.
  intros N lines l D. induction D as [|line a b i j lines r G A B D IH|line lines r No D IH]; intros l' F; inversion F as [|? q ? qs Q Fs]; subst.
  - reflexivity.
  - destruct Q as (a' & b' & (r1 & G1) & A' & B'). destruct G as (r2 & G2). rewrite G1 in G2. injection G2 as -> -> _.
    assert (U : forall x y n, nth_error names x = Some n -> nth_error names y = Some n -> x = y).
    { intros x y n X Y. apply (proj1 (NoDup_nth_error names) N); [apply nth_error_Some; congruence|congruence]. }
    f_equal; [|exact (IH qs Fs)]. destruct q as [q1 q2]. cbn in *. f_equal; eapply U; eassumption.
  - exfalso. destruct Q as (a & b & G & A & B). apply (No a b G). split; eapply nth_error_In; eassumption.
Qed.
Lemma file_back m minimum order (px : list proxy) : Permutation order (candidates m minimum) ->
  map fst (elements px) = map fv_name (fst m) -> NoDup (map fv_name (fst m)) -> (forall a, In a (fst m) -> plain_name (fv_name a)) ->
  setup_flippable_pairs px (read_name_pairs (write_pairs m (extract_pairs m minimum order))) = map key (extract_pairs m minimum order).
Proof.
  intros P E N Pl. pose proof (pairs_file px (write_pairs m (extract_pairs m minimum order))) as D. rewrite E in D. specialize (D N).
  apply (described_exact _ N _ _ D).
  assert (H : forall p, In p (extract_pairs m minimum order) -> exists a b, nth_error (fst m) (fp_first p) = Some a /\ nth_error (fst m) (fp_second p) = Some b).
  { intros p I. destruct (in_pairs m minimum order p P I) as [[a A] [b B]]. eauto. }
  unfold write_pairs. revert H. generalize (extract_pairs m minimum order). intros l H. induction l as [|p tl IH]; cbn [map]; constructor.
  - destruct (H p (or_introl eq_refl)) as (a & b & A & B). exists (fv_name a), (fv_name b).
    assert (NA : name_at m (fp_first p) = fv_name a) by (unfold name_at; rewrite A; reflexivity).
    assert (NB : name_at m (fp_second p) = fv_name b) by (unfold name_at; rewrite B; reflexivity).
    split; [|split; cbn [key fst snd]; apply map_nth_error; assumption].
    eexists. rewrite line_items; [rewrite NA, NB; reflexivity|rewrite NA; apply Pl; exact (nth_error_In _ _ A)|rewrite NB; apply Pl; exact (nth_error_In _ _ B)].
  - apply IH. intros q I. apply H. right. exact I.
Qed.
