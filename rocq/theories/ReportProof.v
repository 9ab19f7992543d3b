(** The brackets written by create_json_array. *)
From Coq Require Import List ZArith QArith Qabs Bool String Lia.
From Verif Require Import TextModel TextProof PresolveModel VariableModel VariableSpec JsonModel ArraySpec ArrayProof ReportModel ReportSpec.
Import ListNotations.
Local Open Scope Z_scope.
Local Notation "a +++ b" := (append a b) (at level 60, right associativity).

Definition words (ts : list string) : string := fold_right (fun w acc => w +++ (" " +++ acc)) EmptyString ts.
Lemma str_assoc a b c : ((a +++ b) +++ c) = (a +++ (b +++ c)).
Proof. induction a as [|x a IH]; [reflexivity|]. cbn. now rewrite IH. Qed.
Lemma words_app s t : words (s ++ t) = words s +++ words t.
Proof. induction s as [|w s IH]; [reflexivity|]. unfold words in *. cbn [app fold_right]. rewrite IH, !str_assoc. reflexivity. Qed.

Lemma words_one w ts : words (w :: ts) = w +++ (" " +++ words ts). Proof. reflexivity. Qed.

Lemma open_all index : forall k d, (forall j, (d < j <= d + k)%nat -> nth j index 0 = 0) -> open_loop k index d = (words (repeat "["%string k), (d + k)%nat).
Proof.
  induction k as [|k IH]; intros d H; cbn [open_loop repeat]; [now rewrite Nat.add_0_r|]. rewrite (H (S d)) by lia. cbn [Z.eqb]. rewrite (IH (S d)) by (intros j Hj; apply H; lia). f_equal. lia.
Qed.
Lemma close_some index shape : forall m d, (m <= d)%nat -> (forall j, (d - m < j <= d)%nat -> nth j index 0 = nth j shape 0 - 1) ->
  ((d - m = 0)%nat \/ nth (d - m) index 0 <> nth (d - m) shape 0 - 1) -> close_loop index shape d = (words (repeat "]"%string m), (d - m)%nat).
Proof.
  induction m as [|m IH]; intros d Hm H E.
  - rewrite Nat.sub_0_r in *. destruct d as [|d]; [reflexivity|]. destruct E as [E|E]; [discriminate|]. cbn [close_loop repeat]. rewrite (proj2 (Z.eqb_neq _ _) E). reflexivity.
  - destruct d as [|d]; [lia|]. cbn [close_loop repeat]. rewrite (H (S d)) by lia. rewrite Z.eqb_refl. cbn [Nat.sub] in E. rewrite (IH d); [reflexivity|lia|intros j Hj; apply H; cbn [Nat.sub]; lia|exact E].
Qed.

(** The tokens of a nested array. *)
Fixpoint btoks (s : list Z) (g : list Z -> string) : list string :=
  match s with
  | [] => [g []]
  | n :: s' => "["%string :: flat_map (fun k => btoks s' (fun idx => g (k :: idx))) (upto (Z.to_nat n) 0) ++ ["]"%string]
  end.
Lemma repeat_last (w : string) n : repeat w (S n) = repeat w n ++ [w].
Proof. induction n as [|n IH]; [reflexivity|]. cbn [repeat app] in *. now rewrite <- IH. Qed.
Definition zeros (p : list Z) (z : nat) : Prop := (z < List.length p)%nat /\ forall j, (List.length p - 1 - z < j <= List.length p - 1)%nat -> nth j p 0 = 0.
Definition maxima (p e : list Z) (m : nat) : Prop := (m < List.length p)%nat /\ (forall j, (List.length p - 1 - m < j <= List.length p - 1)%nat -> nth j p 0 = nth j e 0 - 1) /\
  ((List.length p - 1 - m = 0)%nat \/ nth (List.length p - 1 - m) p 0 <> nth (List.length p - 1 - m) e 0 - 1).
Lemma nth_snoc {A} (l : list A) x d j : nth j (l ++ [x]) d = if Nat.ltb j (List.length l) then nth j l d else if Nat.eqb j (List.length l) then x else d.
Proof.
  destruct (Nat.ltb_spec j (List.length l)) as [H|H]; [now rewrite app_nth1|]. rewrite app_nth2 by exact H. destruct (Nat.eqb_spec j (List.length l)) as [->|N]; [now rewrite Nat.sub_diag|].
  destruct (j - List.length l)%nat as [|k] eqn:E; [lia|]. destruct k; reflexivity.
Qed.
Lemma zeros_snoc p z i : zeros p z -> zeros (p ++ [i]) (if (i =? 0)%Z then S z else 0%nat).
Proof.
  intros [H1 H2]. unfold zeros. rewrite app_length. cbn [List.length]. destruct (Z.eqb_spec i 0) as [->|N].
  - split; [lia|]. intros j Hj. rewrite nth_snoc. destruct (Nat.ltb_spec j (List.length p)); [apply H2; lia|destruct (Nat.eqb j (List.length p)); reflexivity].
  - split; [lia|]. intros j Hj. lia.
Qed.
Lemma maxima_snoc p e m i n : List.length e = List.length p -> maxima p e m -> maxima (p ++ [i]) (e ++ [n]) (if (i =? n - 1)%Z then S m else 0%nat).
Proof.
  intros L (H1 & H2 & H3). unfold maxima. rewrite app_length. cbn [List.length]. destruct (Z.eqb_spec i (n - 1)) as [->|N].
  - split; [lia|]. split.
    + intros j Hj. rewrite !nth_snoc, L. destruct (Nat.ltb_spec j (List.length p)); [apply H2; lia|]. destruct (Nat.eqb_spec j (List.length p)); [reflexivity|lia].
    + replace (List.length p + 1 - 1 - S m)%nat with (List.length p - 1 - m)%nat by lia. rewrite !nth_snoc, L. destruct (Nat.ltb_spec (List.length p - 1 - m) (List.length p)); [exact H3|lia].
  - split; [lia|]. split; [intros j Hj; lia|]. right. replace (List.length p + 1 - 1 - 0)%nat with (List.length p) by lia. rewrite !nth_snoc, L, Nat.ltb_irrefl, Nat.eqb_refl. exact N.
Qed.
Lemma block s : Forall (fun n => 0 < n) s -> forall p e z m g rest, List.length e = List.length p -> zeros p z -> maxima p e m ->
  element_loop (e ++ s) (map (fun idx => (p ++ idx, g idx)) (every s) ++ rest) (List.length p - 1 - z) =
  words (repeat "["%string z ++ btoks s (fun idx => value_text (g idx)) ++ repeat "]"%string m) +++ element_loop (e ++ s) rest (List.length p - 1 - m).
Proof.
  induction s as [|n s IH]; intros F p e z m g rest L [Z1 Z2] [M1 [M2 M3]].
  - cbn [every map app element_loop btoks]. rewrite !app_nil_r. replace (List.length e - 1 - (List.length p - 1 - z))%nat with z by lia.
    rewrite (open_all p z) by (intros j Hj; apply Z2; lia). replace (List.length p - 1 - z + z)%nat with (List.length p - 1)%nat by lia.
    rewrite (close_some p e m (List.length p - 1)) by (assumption || lia). rewrite !words_app, words_one, !str_assoc. reflexivity.
  - inversion F as [|? ? Fn Fs]; subst. cbn [every btoks].
    assert (K : forall k i, (1 <= k)%nat -> 0 <= i -> i + Z.of_nat k = n ->
      element_loop (e ++ n :: s) (flat_map (fun k => map (fun idx => (p ++ k :: idx, g (k :: idx))) (every s)) (upto k i) ++ rest) (if (i =? 0)%Z then List.length p - 1 - z else List.length p)%nat =
      words ((if (i =? 0)%Z then repeat "["%string (S z) else []) ++ flat_map (fun k => btoks s (fun idx => value_text (g (k :: idx)))) (upto k i) ++ repeat "]"%string (S m)) +++ element_loop (e ++ n :: s) rest (List.length p - 1 - m)).
    { induction k as [|k IHk]; intros i H1 H2 H3; [lia|]. cbn [upto flat_map]. rewrite <- !app_assoc.
      assert (B : forall t, element_loop (e ++ n :: s) (map (fun idx => (p ++ i :: idx, g (i :: idx))) (every s) ++ t) (if (i =? 0)%Z then List.length p - 1 - z else List.length p)%nat =
        words (repeat "["%string (if (i =? 0)%Z then S z else 0%nat) ++ btoks s (fun idx => value_text (g (i :: idx))) ++ repeat "]"%string (if (i =? n - 1)%Z then S m else 0%nat)) +++ element_loop (e ++ n :: s) t (if (i =? n - 1)%Z then List.length p - 1 - m else List.length p)%nat).
      { intros t. pose proof (IH Fs (p ++ [i]) (e ++ [n]) (if (i =? 0)%Z then S z else 0%nat) (if (i =? n - 1)%Z then S m else 0%nat) (fun idx => g (i :: idx)) t) as Q. rewrite !app_length in Q. cbn [List.length] in Q.
        specialize (Q ltac:(lia) (zeros_snoc p z i (conj Z1 Z2)) (maxima_snoc p e m i n L (conj M1 (conj M2 M3)))).
        rewrite <- (app_assoc e [n] s) in Q. cbn [app] in Q. rewrite (map_ext _ (fun idx => (p ++ i :: idx, g (i :: idx)))) in Q by (intros idx; now rewrite <- app_assoc).
        replace (List.length p + 1 - 1 - (if (i =? 0)%Z then S z else 0))%nat with (if (i =? 0)%Z then List.length p - 1 - z else List.length p)%nat in Q by (destruct (i =? 0); lia).
        replace (List.length p + 1 - 1 - (if (i =? n - 1)%Z then S m else 0))%nat with (if (i =? n - 1)%Z then List.length p - 1 - m else List.length p)%nat in Q by (destruct (i =? n - 1); lia). exact Q. }
      rewrite B. clear B. destruct (Z.eqb_spec i (n - 1)) as [E|E].
      - assert (k = 0%nat) by lia. subst k. cbn [upto flat_map app]. f_equal. f_equal. destruct (i =? 0); reflexivity.
      - pose proof (IHk (i + 1) ltac:(lia) ltac:(lia) ltac:(lia)) as Q. rewrite (proj2 (Z.eqb_neq (i + 1) 0)) in Q by lia. cbn [app] in Q. rewrite Q, <- str_assoc, <- words_app. f_equal. f_equal.
        cbn [repeat]. rewrite app_nil_r, <- !app_assoc. destruct (i =? 0); reflexivity. }
    specialize (K (Z.to_nat n) 0 ltac:(lia) ltac:(lia) ltac:(lia)). cbn [Z.eqb] in K. rewrite map_flat.
    rewrite (flat_ext _ (fun k => map (fun idx => (p ++ k :: idx, g (k :: idx))) (every s))) by (intros a _; now rewrite map_map). rewrite K. f_equal. f_equal.
    rewrite repeat_last, <- !app_assoc. cbn [app repeat]. rewrite <- app_assoc. reflexivity.
Qed.
Lemma top n s g : Forall (fun n => 0 < n) s -> element_loop (n :: s) (map (fun idx => (idx, g idx)) (every (n :: s))) 0 = words (flat_map (fun k => btoks s (fun idx => value_text (g (k :: idx)))) (upto (Z.to_nat n) 0)).
Proof.
  intros F. cbn [every]. generalize (upto (Z.to_nat n) 0) as ks. induction ks as [|k ks IH]; [reflexivity|]. cbn [flat_map]. rewrite map_app, map_map, words_app, <- IH.
  pose proof (block s F [k] [n] 0 0 (fun idx => g (k :: idx)) (map (fun idx => (idx, g idx)) (flat_map (fun k => map (cons k) (every s)) ks)) eq_refl) as Q. cbn [List.length Nat.sub app repeat] in Q. rewrite app_nil_r in Q. apply Q.
  - split; [cbn; lia|]. cbn [List.length]. intros j Hj. lia.
  - split; [cbn; lia|]. cbn [List.length]. split; [intros j Hj; lia|now left].
Qed.

(** ** The items *)
Lemma rank_every s : Forall (fun n => 0 < n) s -> map (rank s) (every s) = map Z.of_nat (seq 0 (Z.to_nat (volume s))) /\ 0 < volume s.
Proof.
  induction s as [|n s IH]; intros F; [split; [reflexivity|cbn; lia]|]. inversion F as [|? ? Fn Fs]; subst. destruct (IH Fs) as [E P]. split; [|cbn [volume]; nia]. cbn [every volume]. rewrite map_flat.
  replace (Z.to_nat (n * volume s)) with (Z.to_nat n * Z.to_nat (volume s))%nat by nia. rewrite seq_mul, map_flat. change 0 with (Z.of_nat 0) at 1. rewrite upto_seq, flat_map_map. apply flat_ext. intros k _.
  rewrite !map_map. cbn [rank]. rewrite <- (map_map (rank s) (fun r => Z.of_nat k * volume s + r)), E, map_map. apply map_ext. intros r. nia.
Qed.
Lemma combine_map {A B} (f : A -> B) l : combine l (map f l) = map (fun a => (a, f a)) l.
Proof. induction l as [|a l IH]; [reflexivity|]. cbn. now rewrite IH. Qed.
Lemma nth_seq_map {A} (d : A) l : map (fun i => nth i l d) (seq 0 (List.length l)) = l.
Proof. induction l as [|a l IH]; [reflexivity|]. cbn [List.length seq map nth]. f_equal. rewrite <- seq_shift, map_map. exact IH. Qed.
Definition item (p : vproxy) (idx : list Z) : value := nth (Z.to_nat (rank (vp_shape p) idx)) (vp_values p) (VInt 0).
Lemma items p : good_shape (vp_shape p) -> Z.of_nat (List.length (vp_values p)) = volume (vp_shape p) -> indexed p = map (fun idx => (idx, item p idx)) (every (vp_shape p)).
Proof.
  intros G L. unfold indexed. pose proof (stored_every _ G) as S. unfold ArrayModel.stored in S. destruct (rank_every (vp_shape p) (proj2 G)) as [R P].
  assert (V : volume (vp_shape p) = number_of_elements (vp_shape p)).
  { assert (E : List.length (every (vp_shape p)) = Z.to_nat (volume (vp_shape p))) by (rewrite <- (map_length (rank (vp_shape p))), R, map_length, seq_length; reflexivity).
    rewrite <- S, map_length, seq_length in E. destruct (position_in_range (vp_shape p) (map (fun _ => 0) (vp_shape p)) G) as (q & _ & Hq); [|lia]. unfold in_range. pose proof (proj2 G) as F. clear - F. induction F as [|n l Hn F IH]; cbn [map]; [constructor|constructor; [lia|exact IH]]. }
  replace (List.length (vp_values p)) with (Z.to_nat (number_of_elements (vp_shape p))) by lia. rewrite S. rewrite <- combine_map. f_equal. unfold item.
  rewrite <- (map_map (rank (vp_shape p)) (fun r => nth (Z.to_nat r) (vp_values p) (VInt 0))), R, map_map.
  rewrite (map_ext _ (fun i => nth i (vp_values p) (VInt 0))) by (intros i; now rewrite Nat2Z.id). replace (Z.to_nat (volume (vp_shape p))) with (List.length (vp_values p)) by lia. symmetry. apply nth_seq_map.
Qed.
Lemma proxy_words name p : good_shape (vp_shape p) -> Z.of_nat (List.length (vp_values p)) = volume (vp_shape p) ->
  proxy_text (name, p) = words (quoted name :: btoks (vp_shape p) (fun idx => value_text (item p idx))).
Proof.
  intros G L. unfold proxy_text. cbn [fst snd]. rewrite (items p G L). destruct (vp_shape p) as [|n s] eqn:E; [destruct G as [X _]; congruence|]. rewrite (top n s (item p)); [|destruct G as [_ X]; now inversion X].
  cbn [btoks]. change (quoted name :: "["%string :: ?l ++ ["]"%string]) with ([quoted name; "["%string] ++ (l ++ ["]"%string])). rewrite !words_app, !words_one, !str_assoc. reflexivity.
Qed.
