(* Sequences of calls: one pool, next to other users of malloc. *)
From Coq Require Import ZArith List.
Import ListNotations.
From Verif Require Import Base MemModel MemSpec.
Local Open Scope Z_scope.

Definition range (b : block) : Z * Z := (b_addr b, Z.max (b_size b) 1).
Definition used (h : heap) : list (Z * Z) := map range (blocks h).
Definition fair (h : heap) (m : Z -> Z) : Prop := forall n, malloc_ok (used h) n (m n).

(* states of the heap and the pool, and blocks handed out so far: address and requested size *)
Inductive reachable : heap -> pool -> list (Z * Z) -> Prop :=
| r_init h : pairwise disjoint (used h) -> Forall (fun b => 0 < b_addr b /\ 0 <= b_size b /\ b_pool b = false) (blocks h) ->
    reachable h mempool_init []
| r_small h g n m h' p' : reachable h mempool_init g -> g = [] -> (forall b, In b (blocks h) -> b_pool b = false) ->
    fair h m -> 0 < n < 2 ^ 32 - 1023 -> mempool_init_small m h n = Some (h', p') -> reachable h' p' []
| r_alloc h p g n m h' p' obj : reachable h p g -> fair h m -> 0 <= n < 2 ^ 32 - 7 ->
    mempool_alloc m h p n = Some (h', p', obj) -> reachable h' p' (if obj =? 0 then g else (obj, n) :: g)
(* other code allocates, frees, and writes to blocks which it owns or was given *)
| r_malloc h p g n a : reachable h p g -> 0 <= n -> malloc_ok (used h) n a -> a <> 0 ->
    reachable (Heap (Block a n false :: blocks h) (next_of h)) p g
| r_free h p g a n : reachable h p g -> In (Block a n false) (blocks h) ->
    reachable (Heap (filter (fun b => negb (b_addr b =? a)) (blocks h)) (next_of h)) p g
| r_write h p g x k next : reachable h p g -> 0 <= k ->
    ((exists y, In y g /\ inside (x, k) y) \/ (exists a n, In (Block a n false) (blocks h) /\ inside (x, k) (a, n))) ->
    (forall a, disjoint (a, 8) (x, k) -> next a = next_of h a) ->
    reachable (Heap (blocks h) next) p g.
