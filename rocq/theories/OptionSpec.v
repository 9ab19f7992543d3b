(** C66: what an option file means. *)
From Coq Require Import List ZArith QArith Qabs Bool String.
From Verif Require Import JsonModel JsonSpec OptionModel.
Import ListNotations.
Local Open Scope Z_scope.

(** The parameter section.name exists, with this kind and this default. *)
Definition declared (section name : string) (k : kind) (d : oval) : Prop :=
  exists fs f, In (section, fs) schema /\ In f fs /\ f_name f = name /\ f_kind f = k /\ f_default f = d.
(** The one parameter that a file cannot set. *)
Definition lost (section name : string) : Prop := section = "parallel"%string /\ name = "number_of_threads_move_update"%string.

(** What the file says about section.name: the last "name" in the last "section". *)
Definition entry (obj : list (string * json)) (section name : string) : option json :=
  match last_with section obj with Some (JObj o) => last_with name o | _ => None end.
(** The value a parameter gets from an entry. *)
Definition means (k : kind) (d : oval) (e : option json) (v : oval) : Prop :=
  match e with
  | None => v = d
  | Some j =>
      match k with
      | FBool => exists b, j = JBool b /\ v = VBool b
      | FInt => exists z, j = JInt KInt z /\ v = VInt z
      | FReal => (exists z, j = JInt KInt z /\ v = VReal (inject_Z z)) \/ (exists q, j = JReal q /\ v = VReal q) \/ (exists t, j = JSpecial t /\ v = VSpecial t)
      | FEnum names =>
          (exists z, j = JInt KInt z /\ v = VEnum z) \/
          (exists s i, j = JStr s /\ nth_error names i = Some s /\ v = VEnum (Z.of_nat i)) \/
          ((forall z, j <> JInt KInt z) /\ (forall s, j <> JStr s) /\ v = d)
      end
  end.

(** A value of the right type that a file can hold. *)
Definition valid (k : kind) (v : oval) : Prop :=
  match k, v with
  | FBool, VBool _ => True
  | FInt, VInt z => -2147483648 <= z <= 2147483647
  | FReal, VReal q => (q == 0 \/ decimal (-300) <= Qabs q <= decimal 300)%Q
  | FReal, VSpecial t => In t ["inf"; "-inf"; "nan"; "-nan"]%string
  | FEnum names, VEnum z => 0 <= z < Z.of_nat (List.length names)
  | _, _ => False
  end.
Definition valid_option (o : opts) : Prop := Forall2 (fun s vs => Forall2 (fun f v => valid (f_kind f) v) (snd s) vs) schema o.
Definition same_value (v w : oval) : Prop :=
  match v with VReal q => exists r, w = VReal r /\ rounded q r | _ => w = v end.
