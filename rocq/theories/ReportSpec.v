(** C68: a solution as nested arrays. *)
From Coq Require Import List ZArith QArith Qabs Bool String.
From Verif Require Import JsonModel JsonSpec VariableSpec ArraySpec ReportModel.
Import ListNotations.
Local Open Scope Z_scope.

(** The number of an element, the last index running fastest. *)
Fixpoint volume (shape : list Z) : Z := match shape with [] => 1 | n :: s => n * volume s end.
Fixpoint rank (shape idx : list Z) : Z :=
  match shape, idx with _ :: s, k :: idx' => k * volume s + rank s idx' | _, _ => 0 end.
(** Descending into nested arrays along an index. *)
Fixpoint follow (w : json) (idx : list Z) : option json :=
  match idx with
  | [] => Some w
  | k :: idx' => match w with JArr l => match nth_error l (Z.to_nat k) with Some u => follow u idx' | None => None end | _ => None end
  end.
(** Arrays nested to the depth and with the lengths of the shape. *)
Fixpoint shaped (shape : list Z) (w : json) : Prop :=
  match shape with
  | [] => True
  | n :: s => exists l, w = JArr l /\ Z.of_nat (List.length l) = n /\ Forall (shaped s) l
  end.
(** A proxy as export_named_solution makes them: one value and one name for each
    element, the values within int and within 1e300. *)
Definition sound_value (v : value) : Prop :=
  match v with VInt z => -2147483648 <= z <= 2147483647 | VReal q => (Qabs q <= decimal 300)%Q end.
Definition sound (p : vproxy) : Prop :=
  good_shape (vp_shape p) /\ Z.of_nat (List.length (vp_values p)) = volume (vp_shape p) /\ List.length (vp_names p) = List.length (vp_values p) /\ Forall sound_value (vp_values p).
(** Six decimals. *)
Definition six (q r : Q) : Prop :=
  (Qabs (r - q) <= 1 # 2000000)%Q /\ (forall k, (q == inject_Z k * (1 # 1000000))%Q -> (r == q)%Q).
Definition shown (v : value) (w : json) : Prop :=
  match v with VInt z => w = JInt KInt z | VReal q => exists r, w = JReal r /\ six q r end.
(** The same after writing and reading the file. *)
Definition kept_value (v : value) (w : json) : Prop :=
  match v with VInt z => w = JInt KInt z | VReal q => exists r t, w = JReal t /\ six q r /\ rounded r t end.
(** The value [w] presents the elements of the proxy as nested arrays, each as [rel] says. *)
Definition presents (rel : value -> json -> Prop) (p : vproxy) (w : json) : Prop :=
  shaped (vp_shape p) w /\
  forall idx, in_range (vp_shape p) idx -> exists v u, nth_error (vp_values p) (Z.to_nat (rank (vp_shape p) idx)) = Some v /\ follow w idx = Some u /\ rel v u.

(** A solution whose file can be read back: plain names, numbers within range. *)
Definition sound_real (q : Q) : Prop := (q == 0 \/ decimal (-300) <= Qabs q <= decimal 300)%Q.
Definition sound_summary (r : report) : Prop :=
  plain (rp_name r) /\ -2147483648 <= rp_variables r <= 2147483647 /\ -2147483648 <= rp_constraints r <= 2147483647 /\ sound_real (rp_objective r) /\ sound_real (rp_violation r).
(** The entries of a file that a solution has apart from its values. *)
Definition keeps_summary (r : report) (m : list (string * json)) : Prop :=
  last_with "version" m = Some (JStr "v2.5.0") /\ last_with "name" m = Some (JStr (rp_name r)) /\
  last_with "number_of_variables" m = Some (JInt KInt (rp_variables r)) /\ last_with "number_of_constraints" m = Some (JInt KInt (rp_constraints r)) /\
  last_with "is_found_feasible_solution" m = Some (JBool (rp_feasible r)) /\
  (exists q, last_with "objective" m = Some (JReal q) /\ rounded (rp_objective r) q) /\ (exists q, last_with "total_violation" m = Some (JReal q) /\ rounded (rp_violation r) q).
(** As nested arrays: distinct plain array names. *)
Definition sound_arrays (ps : list (string * vproxy)) : Prop := NoDup (map fst ps) /\ Forall (fun p => plain (fst p) /\ sound (snd p)) ps.
Definition keeps_arrays (key : string) (ps : list (string * vproxy)) (m : list (string * json)) : Prop :=
  exists l, last_with key m = Some (JObj l) /\ map fst l = map fst ps /\ forall name p, In (name, p) ps -> exists w, last_with name l = Some w /\ presents kept_value p w.
(** By name: distinct plain element names. *)
Definition sound_names (ps : list (string * vproxy)) : Prop :=
  NoDup (flat_map (fun p => vp_names (snd p)) ps) /\ Forall (fun p => sound (snd p) /\ Forall plain (vp_names (snd p)) /\ Forall (fun v => match v with VInt _ => True | VReal q => sound_real q end) (vp_values (snd p))) ps.
Definition keeps_names (key : string) (ps : list (string * vproxy)) (m : list (string * json)) : Prop :=
  exists l, last_with key m = Some (JObj l) /\ forall a p i name v, In (a, p) ps -> nth_error (vp_names p) i = Some name -> nth_error (vp_values p) i = Some v ->
  exists w, last_with name l = Some w /\ match v with VInt z => w = JInt KInt z | VReal q => exists t, w = JReal t /\ rounded q t end.
