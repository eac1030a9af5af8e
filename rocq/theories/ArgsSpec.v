(* What a call binds to the parameters of a function. *)
From Coq Require Import ZArith List Lia Bool ZifyBool.
Import ListNotations.
From Verif Require Import Base ListZ ArgsModel.
Local Open Scope Z_scope.

(* the first [nreq] parameters have no default value, the others have one *)
Definition declares (ps : list param) (nreq : Z) : Prop :=
  0 <= nreq <= len ps /\ forall i p, gz ps i = Some p -> p_default p = (nreq <=? i).

(* parameter i matters: it or a later one is used, or all arguments behind the parameters are *)
Definition needed (ps : list param) (ell : bool) (i : Z) : Prop :=
  0 <= i /\ exists j p, i <= j /\ gz ps j = Some p /\ (p_used p = true \/ ell = true).

(* the value of parameter i: the argument at the same position, else its own default value;
   [dvals] are the default values of the parameters nreq, nreq + 1, ... *)
Definition argument_or_default {V} (nreq : Z) (args dvals : list V) (i : Z) : option V :=
  match gz args i with Some v => Some v | None => gz dvals (i - nreq) end.

(* the array of default values attached to the function: the declared values of the parameters
   which matter *)
Definition defaults_of {V} (ps : list param) (ell : bool) (nreq : Z) (dvals defaults : list V) : Prop :=
  len dvals = len ps - nreq /\
  (forall k, 0 <= k -> (k < len defaults <-> needed ps ell (nreq + k))) /\
  (forall k p, 0 <= k -> gz ps (nreq + k) = Some p -> p_used p = true -> gz defaults k = gz dvals k).

(* a positional call with these arguments, in registers of the caller or in an array *)
Definition passes {V} (a : actual V) (args : list V) : Prop :=
  len args < 2 ^ 31 /\
  (a = AArray args \/
   exists buf idx, a = ARegs buf idx (len args) /\ 0 <= idx /\ idx + len args <= len buf /\
                   forall i, 0 <= i < len args -> gz buf (idx + i) = gz args i).

Definition lookup {V} (k : Z) (props : list (Z * V)) : option V :=
  match find (fun p => fst p =? k) props with Some p => Some (snd p) | None => None end.

(* value of parameter i in a call with named arguments *)
Definition named_or_default {V} (names : list Z) (nreq : Z) (props : list (Z * V)) (dvals : list V) (i : Z) : option V :=
  match gz names i with
  | None => None
  | Some k => match lookup k props with Some v => Some v | None => gz dvals (i - nreq) end
  end.

(* all parameters which matter have a value: the code can get hold of all parameters it uses *)
Definition parameters_are {V} (ps : list param) (o : opts) (places : list place) (f : @frame V) (val : Z -> option V) : Prop :=
  forall i p, gz ps i = Some p -> p_used p = true ->
    exists v pl, val i = Some v /\ gz places i = Some pl /\ read_place o f pl = Ok v.

(* a function of the program, as compiled, with its default values and closures; [ell_indep] is the
   register of an ellipsis parameter used by an inner function *)
Record compiled {V} (nindep : Z) (ps : list param) (ell : bool) (ell_indep : option Z) (uses_this : bool)
    (binds body : nat) (o : opts) (places : list place) (nreq : Z) (dvals defaults closures : list V) : Prop := {
  c_ok : compile_args nindep ps ell ell_indep uses_this binds body = Some (o, places);
  c_decl : declares ps nreq;
  c_indep : 0 <= nindep <= 255;
  c_ell : forall r, ell_indep = Some r -> 0 <= r < nindep;
  c_defaults : defaults_of ps ell nreq dvals defaults;
  c_closures : length closures = binds
}.

(* a required parameter which matters has no argument *)
Definition too_few (ps : list param) (ell : bool) (nreq n : Z) : Prop :=
  exists i, needed ps ell i /\ i < nreq /\ n <= i.

(* registers which do not hold parameters *)
Definition others_are {V} (o : opts) (f : @frame V) (ell : bool) (extra : list V) (uses_this : bool) (this : V) (closures : list V) : Prop :=
  (ell = true -> f (ellipsis_reg o) = Arr extra) /\
  (uses_this = true -> f (this_reg o) = One this) /\
  (forall k v, gz closures k = Some v -> f (bind_reg o + k) = One v).
