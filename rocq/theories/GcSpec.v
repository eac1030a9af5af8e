(* What a garbage collection must do, stated on the objects and the references
   between them. *)
From Coq Require Import ZArith List Lia Bool ZifyBool.
Import ListNotations.
From Verif Require Import Base ListZ GcModel.
Local Open Scope Z_scope.

(* The references held by an object. *)
Definition refs (o : obj) : list Z :=
  match o with
  | OInteger _ | OFloat _ | OOpaque _ | OString _ | OBufStorage _ _ _ _ => []
  | OStringRef _ _ r => [r]
  | OObject a b _ => [a; b]
  | OArray _ a | OBuffer _ a => [a]
  | OFunction _ a b c d e f g => [a; b; c; d; e; f; g]
  | OClass _ a b c d e f g h => [a; b; c; d; e; f; g; h]
  | OObjStorage _ l n => n :: map (fun t => fst (fst t)) l ++ map snd l
  | OArrStorage _ l n => n :: l
  | ODynProp a b => [a; b]
  | OIterator _ a b c d e f => [a; b; c; d; e; f]
  | OModule _ a b c d e f g _ => [a; b; c; d; e; f; g]
  | OStack _ l => l
  | OTracker _ _ o => [o]
  end.

(* Everything else in an object: its type and its other fields.  The data of a
   string which refers to another string is given relative to it, the address
   of the data inside of a buffer storage is left out. *)
Definition shape (o : obj) : obj :=
  match o with
  | OStringRef d p r => OStringRef d (p - r) 0
  | OObject _ _ x => OObject 0 0 x
  | OArray d _ => OArray d 0
  | OBuffer d _ => OBuffer d 0
  | OFunction d _ _ _ _ _ _ _ => OFunction d 0 0 0 0 0 0 0
  | OClass d _ _ _ _ _ _ _ _ => OClass d 0 0 0 0 0 0 0 0
  | OObjStorage d l _ => OObjStorage d (map (fun t => (0, snd (fst t), 0)) l) 0
  | OArrStorage d l _ => OArrStorage d (map (fun _ => 0) l) 0
  | OBufStorage d false _ x => OBufStorage d false 0 x
  | ODynProp _ _ => ODynProp 0 0
  | OIterator d _ _ _ _ _ _ => OIterator d 0 0 0 0 0 0
  | OModule d _ _ _ _ _ _ _ f => OModule d 0 0 0 0 0 0 0 f
  | OStack d l => OStack d (map (fun _ => 0) l)
  | OTracker s d _ => OTracker s d 0
  | _ => o
  end.

(* An id denotes a movable object (in a page), a huge object (allocated on its
   own, with a tracker in a page), or nothing the collector manages. *)
Definition heap_id (v : Z) : Prop := v mod 32 = 1 /\ v <> 1.
Definition huge_id (v : Z) : Prop := v mod 32 = 9.
Definition managed (v : Z) : Prop := heap_id v \/ huge_id v.

(* The roots: everything the instance and its threads refer to. *)
Definition roots (i : inst) : list Z :=
  i_args i :: i_protos i ++ i_modules i ++
  concat (map (fun t => [th_func t; th_this t; th_args t; th_retval t; th_exc t]) (i_threads i)) ++
  concat (map (fun x => x_exc x :: x_stack x :: x_locals x ++ x_ulocals x) (i_ctxs i)).

Definition body (h : heap) (v : Z) : obj := c_obj (mem h v).

(* A huge object and its tracker belong together. *)
Definition succ (h : heap) (v w : Z) : Prop :=
  In w (refs (body h v)) \/ (huge_id v /\ w = bref h v).

Inductive reach (h : heap) (i : inst) : Z -> Prop :=
| reach_root : forall v, In v (roots i) -> managed v -> reach h i v
| reach_step : forall v w, reach h i v -> succ h v w -> managed w -> reach h i w.

(* The objects laid out one after the other from [a] to [e]. *)
Fixpoint chain (m : Z -> cell) (a e : Z) (l : list Z) : Prop :=
  match l with
  | [] => a = e
  | x :: l' => x = a /\ exists s, c_hdr (m x) = HSize s /\ 0 < s /\ s mod 32 = 0 /\
                                 chain m (a + s) e l'
  end.

Definition pobjs (h : heap) (p : Z) (l : list Z) : Prop :=
  chain (mem h) (slot_id p 0) (slot_id p (nalloc h p)) l.

Definition opt_list {A : Type} (o : option A) : list A :=
  match o with Some x => [x] | None => [] end.

Definition in_use (h : heap) : list Z := used h ++ opt_list (cur h).

(* [v] is an object in one of the pages in use. *)
Definition is_obj (h : heap) (v : Z) : Prop :=
  exists p l, In p (in_use h) /\ pobjs h p l /\ In v l.

(* Pages: all different, at most full, well laid out; free pages are empty. *)
Definition pages_ok (h : heap) : Prop :=
  NoDup (in_use h ++ free h ++ resv h) /\
  (forall p, In p (in_use h ++ free h ++ resv h) -> 0 <= p) /\
  (forall p, In p (in_use h) -> 0 <= nalloc h p <= 126 /\ exists l, pobjs h p l) /\
  (forall p, In p (free h) -> nalloc h p = 0).

(* Objects: every tracker is the tracker of its object; what can be reached is
   there, and buffers hold buffer storages (kos_buffer.c). *)
Definition objs_ok (h : heap) (i : inst) : Prop :=
  (forall t s d o, is_obj h t -> body h t = OTracker s d o -> o <> 1 ->
     huge_id o /\ bref h o = t) /\
  (forall v, reach h i v -> heap_id v -> is_obj h v) /\
  (forall v, reach h i v -> huge_id v ->
     (exists s, c_hdr (mem h v) = HSize s) /\
     heap_id (bref h v) /\ (exists s d, body h (bref h v) = OTracker s d v) /\
     (forall s d o, body h v <> OTracker s d o)) /\
  (forall v d x, reach h i v -> body h v = OBuffer d x -> managed x ->
     exists d' e p f, body h x = OBufStorage d' e p f).

Definition heap_ok (h : heap) (i : inst) : Prop :=
  pages_ok h /\ objs_ok h i /\
  usz h = fold_right Z.add 0 (map (fun p => 64 + 32 * nalloc h p) (used h)).

Definition is_opaque (o : obj) : Prop := exists d, o = OOpaque d.

(* [v'] in [h'] is [v] of [h], with its references renamed by [f]. *)
Definition same_object (f : Z -> Z) (h : heap) (v : Z) (h' : heap) (v' : Z) : Prop :=
  c_hdr (mem h' v') = c_hdr (mem h v) /\
  shape (body h' v') = shape (body h v) /\
  refs (body h' v') = map f (refs (body h v)) /\
  (forall d p x, body h' v' = OBufStorage d false p x -> p = v' + 23) /\
  (huge_id v -> v' = v /\ bref h' v' = f (bref h v)).

(* The native data of the finalizer of an object. *)
Definition final_data (o : obj) : option Z :=
  match o with
  | OObject _ _ x => x
  | OBufStorage _ true _ x => x
  | OModule _ _ _ _ _ _ _ _ x => x
  | _ => None
  end.

(* The data [d] belongs to the finalizer of a movable or of a huge object which
   cannot be reached. *)
Definition garbage_data (h : heap) (i : inst) (d : Z) : Prop :=
  exists v, (is_obj h v \/ exists t s x, is_obj h t /\ body h t = OTracker s x v /\ x <> 0 /\ v <> 1) /\
            ~ reach h i v /\ final_data (body h v) = Some d.

(* A collection turned [h], [i] into [h'], [i']: the reachable objects are all
   there, possibly elsewhere, every reference follows them, nothing else is
   left, and the unreachable objects, but no others, were finalized. *)
Definition collected (h : heap) (i : inst) (h' : heap) (i' : inst) : Prop :=
  (exists f : Z -> Z,
     (forall v, ~ heap_id v -> f v = v) /\
     (forall v w, reach h i v -> reach h i w -> f v = f w -> v = w) /\
     roots i' = map f (roots i) /\
     (forall v, reach h i v -> same_object f h v h' (f v)) /\
     (forall v, reach h i v -> heap_id v -> is_obj h' (f v)) /\
     (forall w, is_obj h' w -> is_opaque (body h' w) \/ exists v, reach h i v /\ w = f v)) /\
  (exists new, fins h' = new ++ fins h /\ forall d, In d new -> garbage_data h i d) /\
  (forall d, garbage_data h i d -> In d (fins h')).
