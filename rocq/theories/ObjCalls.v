(* Operations of the specification as calls of the modelled functions. *)
From Coq Require Import ZArith List Lia Bool ZifyBool.
Import ListNotations.
From Verif Require Import Base ObjModel ObjSpec.
Local Open Scope Z_scope.

Definition pval_of (v : sval) : pval := match v with Plain x => Val x | Dynamic x => Dyn x end.
Definition sval_of (v : option pval) : option sval :=
  match v with Some (Val x) => Some (Plain x) | Some (Dyn x) => Some (Dynamic x) | _ => None end.

(* the state as the user sees it: the value of a key is the one in the first slot with this key *)
Fixpoint assoc (l : list pitem) (k : key) : option pval :=
  match l with
  | [] => None
  | it :: t =>
    match i_key it with
    | Some k' => if keyb k k' then Some (i_val it) else assoc t k
    | None => assoc t k
    end
  end.
Definition abs_obj (w : world) (ob : obj) : sobj :=
  SObj (match o_props ob with
        | None => None
        | Some None => Some no_props
        | Some (Some n) => match get_table w n with
                           | Some t => Some (fun k => sval_of (assoc (t_items t) k))
                           | None => None
                           end
        end) (o_proto ob).
Definition abs (w : world) : list sobj := map (abs_obj w) (w_objs w).

Section Calls.
Variable alloc_ok : Z -> bool.
Variable hash : key -> Z.

Definition ores_outcome (r : ores world) : option (outcome * world) :=
  match r with
  | OOk w => Some (Done, w)
  | OExn w => Some (Raised, w)
  | OSetter d w => Some (Setter d, w)
  | OBad => None
  end.

(* None: failed assertion, access outside of a table, endless loop *)
Definition run_op (w : world) (x : op) : option (outcome * world) :=
  match x with
  | Put o k v => ores_outcome (set_property alloc_ok hash w o k (pval_of v))
  | Delete o k => ores_outcome (delete_property alloc_ok hash w o k)
  | Read o k shallow =>
    match get_property hash w o k shallow with
    | (GFound v, w) => match sval_of (Some v) with Some s => Some (Found s, w) | None => None end
    | (GTryPrototype, w) => Some (Absent, w)
    | _ => None
    end
  | Create p => let '(w, o) := new_object w p in Some (Created o, w)
  end.

Fixpoint run (w : world) (xs : list op) : option (list outcome * world) :=
  match xs with
  | [] => Some ([], w)
  | x :: t =>
    match run_op w x with
    | None => None
    | Some (out, w) => match run w t with Some (outs, w) => Some (out :: outs, w) | None => None end
    end
  end.

(* a walk interleaved with operations: all states, and what each call of kos_object_walk returned
   in which state *)
Inductive event := Next | Do (x : op).
Fixpoint session (w : world) (k : walker) (es : list event) : option (list (list sobj) * list (list sobj * option (name * sval))) :=
  match es with
  | [] => Some ([abs w], [])
  | Next :: t =>
    match object_walk alloc_ok hash w k with
    | OOk (y, k, w') =>
      let out := match y with
                 | None => Some None
                 | Some (n, v) => match sval_of (Some v) with Some s => Some (Some (n, s)) | None => None end
                 end in
      match out, session w' k t with
      | Some out, Some (states, ys) => Some (abs w :: states, (abs w, out) :: ys)
      | _, _ => None
      end
    | _ => None
    end
  | Do x :: t =>
    match run_op w x with
    | Some (_, w') => match session w' k t with Some (states, ys) => Some (abs w :: states, ys) | None => None end
    | None => None
    end
  end.
End Calls.

Definition empty_world : world := World [] [].

(* all operations name existing objects *)
Fixpoint valid_events (n : nat) (es : list event) : Prop :=
  match es with
  | [] => True
  | Next :: t => valid_events n t
  | Do x :: t =>
    match x with
    | Put o _ _ | Delete o _ | Read o _ _ => (o < n)%nat /\ valid_events n t
    | Create None => valid_events (S n) t
    | Create (Some p) => (p < n)%nat /\ valid_events (S n) t
    end
  end.

Definition yielded (ys : list (list sobj * option (name * sval))) : list name :=
  flat_map (fun y => match snd y with Some (x, _) => [x] | None => [] end) ys.

