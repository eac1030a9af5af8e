(* Model of core/kos_red_black.c: trees of nodes linked by parent, left and right pointers.
   Simplifications: a node is an address, a positive integer, 0 is the null pointer and LEAF is
   the address of the local variable of kos_red_black_delete.  A memory maps addresses to nodes.
   None: a null pointer is dereferenced, an assertion fails or a loop does not end in [fuel]
   steps.  Comparison functions and walk callbacks do not change the links. *)
From Coq Require Import ZArith List Bool.
Import ListNotations.
Local Open Scope Z_scope.

(* kos_red_black.h:8-14 *)
Record rbnode := Node { n_parent : Z; n_left : Z; n_right : Z; n_red : Z }.

Notation mem := (Z -> rbnode).

Definition LEAF : Z := -1.

Definition upd (h : mem) (p : Z) (n : rbnode) : mem := fun x => if x =? p then n else h x.

Definition bind {A B} (x : option A) (f : A -> option B) : option B :=
  match x with Some v => f v | None => None end.
Declare Scope rb_scope.
Delimit Scope rb_scope with rb.
Notation "x <- e ;; k" := (bind e (fun x => k)) (at level 61, e at next level, right associativity) : rb_scope.
Local Open Scope rb_scope.

Definition assert (b : bool) : option unit := if b then Some tt else None.

(* p->field *)
Definition get (f : rbnode -> Z) (h : mem) (p : Z) : option Z := if p =? 0 then None else Some (f (h p)).
Notation gP := (get n_parent).
Notation gL := (get n_left).
Notation gR := (get n_right).
Notation gC := (get n_red).

(* p->field = v *)
Definition sP (h : mem) (p v : Z) : option mem :=
  if p =? 0 then None else Some (upd h p (Node v (n_left (h p)) (n_right (h p)) (n_red (h p)))).
Definition sL (h : mem) (p v : Z) : option mem :=
  if p =? 0 then None else Some (upd h p (Node (n_parent (h p)) v (n_right (h p)) (n_red (h p)))).
Definition sR (h : mem) (p v : Z) : option mem :=
  if p =? 0 then None else Some (upd h p (Node (n_parent (h p)) (n_left (h p)) v (n_red (h p)))).
Definition sC (h : mem) (p v : Z) : option mem :=
  if p =? 0 then None else Some (upd h p (Node (n_parent (h p)) (n_left (h p)) (n_right (h p)) v)).

(* kos_red_black.c:11-26; [compare] is compare(what, node) *)
Fixpoint find (fuel : nat) (h : mem) (root : Z) (compare : Z -> Z) : option Z :=
  if root =? 0 then Some 0 else
  match fuel with
  | O => None
  | S fuel =>
      let result := compare root in
      if result =? 0 then Some root
      else if result <? 0 then (l <- gL h root ;; find fuel h l compare)
      else (r <- gR h root ;; find fuel h r compare)
  end.

(* the inner loops kos_red_black.c:37-38 and 50-51, also 211-212: while (node->left) *)
Fixpoint leftmost (fuel : nat) (h : mem) (node : Z) : option Z :=
  match fuel with
  | O => None
  | S fuel => l <- gL h node ;; if l =? 0 then Some node else leftmost fuel h l
  end.

(* kos_red_black.c:57-61: do ... while (node && node->right == prev) *)
Fixpoint ascend (fuel : nat) (h : mem) (node : Z) : option Z :=
  match fuel with
  | O => None
  | S fuel =>
      p <- gP h node ;;
      if p =? 0 then Some 0 else r <- gR h p ;; if r =? node then ascend fuel h p else Some p
  end.

(* kos_red_black.c:40-63; the callback maps a node and the state of the cookie to a new state and
   an error code *)
Fixpoint walk_loop {T} (fuel fuel' : nat) (h : mem) (walk : Z -> T -> T * Z) (node : Z) (cookie : T) : option (T * Z) :=
  if node =? 0 then Some (cookie, 0) else
  match fuel with
  | O => None
  | S fuel =>
      let (cookie, error) := walk node cookie in
      if negb (error =? 0) then Some (cookie, error) else
      r <- gR h node ;;
      next <- (if negb (r =? 0) then leftmost fuel' h r else ascend fuel' h node) ;;
      walk_loop fuel fuel' h walk next cookie
  end.

(* kos_red_black.c:28-67 *)
Definition walk {T} (fuel : nat) (h : mem) (node : Z) (walk : Z -> T -> T * Z) (cookie : T) : option (T * Z) :=
  if node =? 0 then Some (cookie, 0) else
  first <- leftmost fuel h node ;; walk_loop fuel fuel h walk first cookie.

(* kos_red_black.c:75-84; [slot] is the place where the new node is stored: None the root, or a
   node and whether it is its left child *)
Fixpoint insert_loop (fuel : nat) (h : mem) (root : Z) (slot : option (Z * bool)) (new_node : Z) (compare : Z -> Z -> Z) : option (mem * Z) :=
  match fuel with
  | O => None
  | S fuel =>
      cur <- match slot with None => Some root | Some (p, true) => gL h p | Some (p, false) => gR h p end ;;
      if cur =? 0 then
        match slot with
        | None => h <- sP h new_node 0 ;; Some (h, new_node)
        | Some (p, true) => h <- sL h p new_node ;; h <- sP h new_node p ;; Some (h, root)
        | Some (p, false) => h <- sR h p new_node ;; h <- sP h new_node p ;; Some (h, root)
        end
      else insert_loop fuel h root (Some (cur, compare new_node cur <? 0)) new_node compare
  end.

(* kos_red_black.c:69-85 *)
Definition insert_binary (fuel : nat) (h : mem) (root new_node : Z) (compare : Z -> Z -> Z) : option (mem * Z) :=
  insert_loop fuel h root None new_node compare.

(* kos_red_black.c:87-111 *)
Definition left_rotate (h : mem) (root node : Z) : option (mem * Z) :=
  other <- gR h node ;;
  ol <- gL h other ;;
  h <- sR h node ol ;;
  ol <- gL h other ;;
  h <- (if negb (ol =? 0) then sP h ol node else Some h) ;;
  np <- gP h node ;;
  h <- sP h other np ;;
  np <- gP h node ;;
  hr <- (if negb (np =? 0) then
           npl <- gL h np ;;
           if node =? npl then h <- sL h np other ;; Some (h, root) else h <- sR h np other ;; Some (h, root)
         else Some (h, other)) ;;
  h <- sL (fst hr) other node ;;
  h <- sP h node other ;;
  Some (h, snd hr).

(* kos_red_black.c:113-137 *)
Definition right_rotate (h : mem) (root node : Z) : option (mem * Z) :=
  other <- gL h node ;;
  or <- gR h other ;;
  h <- sL h node or ;;
  or <- gR h other ;;
  h <- (if negb (or =? 0) then sP h or node else Some h) ;;
  np <- gP h node ;;
  h <- sP h other np ;;
  np <- gP h node ;;
  hr <- (if negb (np =? 0) then
           npr <- gR h np ;;
           if node =? npr then h <- sR h np other ;; Some (h, root) else h <- sL h np other ;; Some (h, root)
         else Some (h, other)) ;;
  h <- sR (fst hr) other node ;;
  h <- sP h node other ;;
  Some (h, snd hr).

(* p && p->red *)
Definition is_red (h : mem) (p : Z) : option bool :=
  if p =? 0 then Some false else c <- gC h p ;; Some (negb (c =? 0)).

(* kos_red_black.c:149-193 *)
Fixpoint insert_fix (fuel : nat) (h : mem) (root node : Z) : option (mem * Z) :=
  match fuel with
  | O => None
  | S fuel =>
      go <- (if node =? root then Some false else p <- gP h node ;; c <- gC h p ;; Some (negb (c =? 0))) ;;
      if negb go then
        (if node =? root then h <- sC h node 0 ;; Some (h, root) else Some (h, root))
      else
        p <- gP h node ;;
        pp <- gP h p ;;
        ppl <- gL h pp ;;
        ppr <- gR h pp ;;
        if p =? ppl then
          ur <- is_red h ppr ;;
          if ur then
            h <- sC h ppl 0 ;;
            h <- sC h ppr 0 ;;
            p <- gP h node ;;
            node <- gP h p ;;
            h <- sC h node 1 ;;
            insert_fix fuel h root node
          else
            pr <- gR h p ;;
            hrn <- (if node =? pr then hr <- left_rotate h root p ;; Some (fst hr, snd hr, p) else Some (h, root, node)) ;;
            let '(h, root, node) := hrn in
            p <- gP h node ;;
            h <- sC h p 0 ;;
            p <- gP h node ;;
            pp <- gP h p ;;
            h <- sC h pp 1 ;;
            p <- gP h node ;;
            pp <- gP h p ;;
            hr <- right_rotate h root pp ;;
            insert_fix fuel (fst hr) (snd hr) node
        else
          ur <- is_red h ppl ;;
          if ur then
            h <- sC h ppl 0 ;;
            h <- sC h ppr 0 ;;
            p <- gP h node ;;
            node <- gP h p ;;
            h <- sC h node 1 ;;
            insert_fix fuel h root node
          else
            pl <- gL h p ;;
            hrn <- (if node =? pl then hr <- right_rotate h root p ;; Some (fst hr, snd hr, p) else Some (h, root, node)) ;;
            let '(h, root, node) := hrn in
            p <- gP h node ;;
            h <- sC h p 0 ;;
            p <- gP h node ;;
            pp <- gP h p ;;
            h <- sC h pp 1 ;;
            p <- gP h node ;;
            pp <- gP h p ;;
            hr <- left_rotate h root pp ;;
            insert_fix fuel (fst hr) (snd hr) node
  end.

(* kos_red_black.c:139-194 *)
Definition insert (fuel : nat) (h : mem) (root new_node : Z) (compare : Z -> Z -> Z) : option (mem * Z) :=
  h <- sC h new_node 1 ;;
  h <- sL h new_node 0 ;;
  h <- sR h new_node 0 ;;
  hr <- insert_binary fuel h root new_node compare ;;
  insert_fix fuel (fst hr) (snd hr) new_node.

(* kos_red_black.c:204-253: swap the node with its successor *)
Definition swap_succ (fuel : nat) (h : mem) (root node : Z) : option (mem * Z) :=
  r <- gR h node ;;
  succ <- leftmost fuel h r ;;
  a <- gL h node ;;
  h <- sL h succ a ;;
  h <- sL h node 0 ;;
  h <- sP h a succ ;;
  a <- gR h node ;;
  b <- gR h succ ;;
  h <- sR h node b ;;
  h <- (if negb (b =? 0) then sP h b node else Some h) ;;
  h <- (if a =? succ then sR h succ node else h <- sR h succ a ;; sP h a succ) ;;
  a <- gP h node ;;
  b <- gP h succ ;;
  h <- sP h succ a ;;
  h <- sP h node (if b =? node then succ else b) ;;
  hr <- (if negb (a =? 0) then
           al <- gL h a ;;
           if al =? node then h <- sL h a succ ;; Some (h, root) else h <- sR h a succ ;; Some (h, root)
         else Some (h, succ)) ;;
  let (h, root) := hr : mem * Z in
  h <- (if negb (b =? node) then
          bl <- gL h b ;; _ <- assert (bl =? succ) ;; sL h b node
        else Some h) ;;
  color <- gC h node ;;
  sc <- gC h succ ;;
  h <- sC h node sc ;;
  h <- sC h succ color ;;
  Some (h, root).

(* kos_red_black.c:255-291: unlink a node with at most one child, returns the child which takes its
   place, LEAF when there is none *)
Definition unlink (h : mem) (root node : Z) : option (mem * Z * Z) :=
  l <- gL h node ;;
  succ <- (if negb (l =? 0) then Some l else gR h node) ;;
  let '(h, succ) := if succ =? 0 then (upd h LEAF (Node (n_parent (h LEAF)) 0 0 0), LEAF) else (h, succ) in
  parent <- gP h node ;;
  hr <- (if negb (parent =? 0) then
           pl <- gL h parent ;;
           if pl =? node then h <- sL h parent succ ;; Some (h, root) else h <- sR h parent succ ;; Some (h, root)
         else Some (h, succ)) ;;
  let (h, root) := hr : mem * Z in
  h <- sP h succ parent ;;
  h <- (if negb (parent =? 0) then
          c <- gC h node ;;
          if negb (c =? 0) then (if succ =? LEAF then sC h LEAF 0 else Some h)
          else sc <- gC h succ ;; if sc =? 1 then sC h succ 0 else sC h succ 2
        else Some h) ;;
  Some (h, root, succ).

(* kos_red_black.c:293-357 *)
Fixpoint delete_fix (fuel : nat) (h : mem) (root node : Z) : option (mem * Z) :=
  match fuel with
  | O => None
  | S fuel =>
      c <- gC h node ;;
      if negb (c =? 2) then Some (h, root) else
      parent <- gP h node ;;
      if parent =? 0 then h <- sC h node 0 ;; Some (h, root) else
      pl <- gL h parent ;;
      let sibling_left := negb (pl =? node) in
      sibling <- (if sibling_left then gL h parent else gR h parent) ;;
      _ <- assert (negb (sibling =? 0)) ;;
      sc <- gC h sibling ;;
      if negb (sc =? 0) then
        pc <- gC h parent ;;
        _ <- assert (pc =? 0) ;;
        hr <- (if sibling_left then right_rotate h root parent else left_rotate h root parent) ;;
        h <- sC (fst hr) parent 1 ;;
        h <- sC h sibling 0 ;;
        delete_fix fuel h (snd hr) node
      else
        sl <- gL h sibling ;;
        left_red <- is_red h sl ;;
        sr <- gR h sibling ;;
        right_red <- is_red h sr ;;
        if sibling_left && left_red then
          hr <- right_rotate h root parent ;;
          pc <- gC (fst hr) parent ;;
          h <- sC (fst hr) sibling pc ;;
          h <- sC h parent 0 ;;
          sl <- gL h sibling ;;
          h <- sC h sl 0 ;;
          h <- sC h node 0 ;;
          delete_fix fuel h (snd hr) parent
        else if negb sibling_left && right_red then
          hr <- left_rotate h root parent ;;
          pc <- gC (fst hr) parent ;;
          h <- sC (fst hr) sibling pc ;;
          h <- sC h parent 0 ;;
          sr <- gR h sibling ;;
          h <- sC h sr 0 ;;
          h <- sC h node 0 ;;
          delete_fix fuel h (snd hr) parent
        else if left_red then
          h <- sC h sl 0 ;;
          h <- sC h sibling 1 ;;
          hr <- right_rotate h root sibling ;;
          delete_fix fuel (fst hr) (snd hr) node
        else if right_red then
          h <- sC h sr 0 ;;
          h <- sC h sibling 1 ;;
          hr <- left_rotate h root sibling ;;
          delete_fix fuel (fst hr) (snd hr) node
        else
          pc <- gC h parent ;;
          h <- sC h parent (if negb (pc =? 0) then 0 else 2) ;;
          h <- sC h node 0 ;;
          h <- sC h sibling 1 ;;
          delete_fix fuel h root parent
  end.

(* kos_red_black.c:359-376: remove the dummy leaf, which is in use when its colour is not 3 *)
Definition drop_leaf (h : mem) (root : Z) : option (mem * Z) :=
  hr <- (if negb (n_red (h LEAF) =? 3) then
           _ <- assert (n_red (h LEAF) =? 0) ;;
           let parent := n_parent (h LEAF) in
           if negb (parent =? 0) then
             pl <- gL h parent ;;
             if pl =? LEAF then h <- sL h parent 0 ;; Some (h, root) else h <- sR h parent 0 ;; Some (h, root)
           else Some (h, 0)
         else Some (h, root)) ;;
  let (h, root) := hr : mem * Z in
  if negb (root =? 0) then h <- sC h root 0 ;; Some (h, root) else Some (h, root).

(* kos_red_black.c:196-377 *)
Definition delete (fuel : nat) (h : mem) (root node : Z) : option (mem * Z) :=
  let h := upd h LEAF (Node 0 0 0 3) in
  l <- gL h node ;;
  r <- gR h node ;;
  hr <- (if negb (l =? 0) && negb (r =? 0) then swap_succ fuel h root node else Some (h, root)) ;;
  hrs <- unlink (fst hr) (snd hr) node ;;
  let '(h, root, succ) := hrs in
  hr <- delete_fix fuel h root succ ;;
  drop_leaf (fst hr) (snd hr).

(* any sequence of calls; inserting (true) or deleting (false) a node *)
Fixpoint run (fuel : nat) (cmp : Z -> Z -> Z) (h : mem) (root : Z) (os : list (bool * Z)) : option (mem * Z) :=
  match os with
  | [] => Some (h, root)
  | (ins, a) :: os =>
      hr <- (if ins then insert fuel h root a cmp else delete fuel h root a) ;;
      run fuel cmp (fst hr) (snd hr) os
  end.
