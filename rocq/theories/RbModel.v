(** Model of the red-black tree: amelie/runtime/lib/rbtree.c, rbtree.h.

    A node pointer is a zipper: the node's own subtree and the path to the root
    (innermost parent first), so that p->p, p->l, p->r of the C code are the frames
    of the path.  A mirrored pair of C branches (p == g->l / p == g->r) is one branch
    of the model parametrised by the side [d]; [mk d c x a b] is the node with [a] on
    side [d] and [b] on the other side. *)
From Verif Require Import Base.

(* rbtree.c:32-34 *)
Inductive color := Black | Red.
Inductive side := L | R.
Definition opp (d : side) : side := match d with L => R | R => L end.

Section Rb.
Variable X : Type.                         (* what a node is embedded in *)

(* rbtree.h:17-22 *)
Inductive rb := E | T (c : color) (l : rb) (x : X) (r : rb).
(* the parent of the hole: side of the hole, colour, payload, the other child *)
Record frame := mkframe { f_side : side; f_color : color; f_x : X; f_other : rb }.
Definition ctx := list frame.

Definition mk (d : side) (c : color) (x : X) (a b : rb) : rb :=
  match d with L => T c a x b | R => T c b x a end.
Definition plug1 (t : rb) (f : frame) : rb := mk (f_side f) (f_color f) (f_x f) t (f_other f).
Fixpoint plug (t : rb) (k : ctx) : rb :=
  match k with [] => t | f :: k' => plug (plug1 t f) k' end.

Definition is_red (t : rb) : bool := match t with T Red _ _ _ => true | _ => false end.
Definition paint (c : color) (t : rb) : rb := match t with E => E | T _ l x r => T c l x r end.
(* n->l / n->r *)
Definition child (d : side) (t : rb) : res rb :=
  match t with E => UB | T _ l _ r => Ok (match d with L => l | R => r end) end.
Definition elt (t : rb) : res X := match t with E => UB | T _ _ x _ => Ok x end.

Fixpoint inorder (t : rb) : list X :=
  match t with E => [] | T _ l x r => inorder l ++ x :: inorder r end.
Fixpoint size (t : rb) : nat := match t with E => 0 | T _ l _ r => size l + S (size r) end%nat.

(* rbtree.c:36-56 rotate_left (d = L), 58-78 rotate_right (d = R): the node [n], its
   child q on the other side takes its place *)
Definition rotate (d : side) (n : rb) : res rb :=
  match d, n with
  | L, T c l x (T cq ql xq qr) => Ok (T cq (T c l x ql) xq qr)
  | R, T c (T cq ql xq qr) x r => Ok (T cq ql xq (T c qr x r))
  | _, _ => UB
  end.

(* rbtree.c:80-124 set_fixup, lines 123: self->root->color = RBTREE_BLACK.
   [n] is the subtree of the node n, red. *)
Fixpoint set_fixup (n : rb) (k : ctx) : res rb :=
  match k with
  | [] => Ok (paint Black n)
  | p :: k1 =>
    match f_color p with
    | Black => Ok (paint Black (plug n k))
    | Red =>
      match k1 with
      | [] => UB                           (* g == NULL *)
      | g :: k2 =>
        let d := f_side g in               (* p == g->l *)
        let u := f_other g in
        if is_red u then                   (* 89-93 / 106-110 *)
          set_fixup (mk d Red (f_x g) (mk (f_side p) Black (f_x p) n (f_other p)) (paint Black u)) k2
        else
          (* 95-99 / 112-116: n == p->r *)
          do q <- match f_side p, d with
                  | R, L => rotate L (mk R (f_color p) (f_x p) n (f_other p))
                  | L, R => rotate R (mk L (f_color p) (f_x p) n (f_other p))
                  | _, _ => Ok (mk (f_side p) (f_color p) (f_x p) n (f_other p))
                  end;
          (* 100-102 / 117-119 *)
          do top <- rotate (opp d) (mk d Red (f_x g) (paint Black q) u);
          Ok (paint Black (plug top k2))
      end
    end
  end.

(** a node pointer as an in-order rank: [locate t i k] is the zipper of the i-th node *)
Fixpoint locate (t : rb) (i : nat) (k : ctx) : res (rb * ctx) :=
  match t with
  | E => UB
  | T c l x r =>
    if (i <? size l)%nat then locate l i (mkframe L c x r :: k)
    else if (i =? size l)%nat then Ok (t, k)
    else locate r (i - size l - 1) (mkframe R c x l :: k)
  end.
(* the rank of the node at a hole: nodes before it *)
Fixpoint rank (k : ctx) : nat :=
  match k with
  | [] => 0
  | f :: k' => match f_side f with L => rank k' | R => S (size (f_other f)) + rank k' end
  end%nat.

(* rbtree.h:37-63 rbtree_get: the last node visited (None: the tree is empty) and the
   last result of the comparison; the int64_t rc is returned as int *)
Fixpoint rb_get (f : X -> res Z) (t : rb) (k : ctx) : res (option (rb * ctx) * Z) :=
  match t with
  | E => Ok (None, 0)
  | T c l x r =>
    do rc <- f x;
    if rc <? 0 then
      do (m, rc') <- rb_get f r (mkframe R c x l :: k);
      match m with None => Ok (Some (t, k), rc) | Some _ => Ok (m, rc') end
    else if 0 <? rc then
      do (m, rc') <- rb_get f l (mkframe L c x r :: k);
      match m with None => Ok (Some (t, k), rc) | Some _ => Ok (m, rc') end
    else Ok (Some (t, k), rc)
  end.

(* rbtree.c:126-143 rbtree_set: parent (None: the tree is empty) and side by the sign of
   prel.  The child replaced must be NULL, otherwise a subtree would be lost. *)
Definition rb_set (p : option (rb * ctx)) (prel : Z) (x : X) : res rb :=
  let n := T Red E x E in
  match p with
  | None => set_fixup n []
  | Some (T c l y r, k) =>
    if prel =? 0 then UB                   (* assert(prel != 0) *)
    else if 0 <? prel then match l with E => set_fixup n (mkframe L c y r :: k) | _ => UB end
    else match r with E => set_fixup n (mkframe R c y l :: k) | _ => UB end
  | Some (E, _) => UB
  end.

(** rbtree.c:225-291: one turn of the loop for the hole [n] on side [d] of p = (pc, px, s).
    [DStop t]: the rotation of 257 / 287 was made and the loop left; [DUp t]: 242-245 /
    272-275, n is now p. *)
Inductive del_out := DStop (t : rb) | DUp (t : rb).
Definition del_case (d : side) (pc : color) (px : X) (n s : rb) : res del_out :=
  do sn <- child d s; do sf <- child (opp d) s;   (* near, far child of the sibling *)
  if negb (is_red sn) && negb (is_red sf) then
    Ok (DUp (mk d pc px n (paint Red s)))
  else
    do s1 <- (if negb (is_red sf) then            (* 247-253 / 277-283 *)
                do sx <- elt s;
                rotate (opp d) (mk d Red sx (paint Black sn) sf)
              else Ok s);
    (* 254-257 / 284-287 *)
    do n1 <- child d s1; do f1 <- child (opp d) s1; do x1 <- elt s1;
    match f1 with
    | E => UB
    | _ => do t <- rotate d (mk d Black px n (mk d pc x1 n1 (paint Black f1))); Ok (DStop t)
    end.

(* rbtree.c:225-293 *)
Fixpoint del_fixup (n : rb) (k : ctx) : res rb :=
  match k with
  | [] => Ok (paint Black n)                      (* n == self->root *)
  | p :: k1 =>
    let d := f_side p in
    match f_other p with
    | E => UB                                     (* s == NULL *)
    | T Red _ sx _ =>                             (* 232-238 / 262-268 *)
      do sn <- child d (f_other p); do sf <- child (opp d) (f_other p);
      do o <- del_case d Red (f_x p) n sn;
      match o with
      | DStop t => Ok (paint Black (plug (mk d Black sx t sf) k1))
      | DUp t => Ok (plug (mk d Black sx (paint Black t) sf) k1)   (* n red: the loop ends *)
      end
    | s =>
      do o <- del_case d (f_color p) (f_x p) n s;
      match o with
      | DStop t => Ok (paint Black (plug t k1))
      | DUp t =>
        match f_color p with
        | Red => Ok (plug (paint Black t) k1)
        | Black => del_fixup t k1
        end
      end
    end
  end.

(* rbtree.c:179-181 the leftmost node below r: its colour, payload, right child and path *)
Fixpoint leftmost (t : rb) (k : ctx) : res (color * X * rb * ctx) :=
  match t with
  | E => UB
  | T c E x r => Ok (c, x, r, k)
  | T c l x r => leftmost l (mkframe L c x r :: k)
  end.

(* rbtree.c:165-294 rbtree_remove *)
Definition rb_remove (loc : rb * ctx) : res rb :=
  match loc with
  | (E, _) => UB
  | (T c l x r, k) =>
    do (cnk : color * rb * ctx) <-
       match l, r with
       | E, _ => Ok (c, r, k)
       | _, E => Ok (c, l, k)
       | _, _ => do (y : color * X * rb * ctx) <- leftmost r [];
                 let '(cy, xy, ry, ky) := y in
                 Ok (cy, ry, ky ++ mkframe R c xy l :: k)
       end;
    let '(cl, n, k') := cnk in
    match cl with
    | Red => Ok (plug n k')
    | Black => if is_red n then Ok (plug (paint Black n) k') else del_fixup n k'
    end
  end.

(* rbtree.c:296-305, 307-316 *)
Fixpoint rb_min (t : rb) (k : ctx) : option (rb * ctx) :=
  match t with E => None | T c E x r => Some (t, k) | T c l x r => rb_min l (mkframe L c x r :: k) end.
Fixpoint rb_max (t : rb) (k : ctx) : option (rb * ctx) :=
  match t with E => None | T c l x E => Some (t, k) | T c l x r => rb_max r (mkframe R c x l :: k) end.

(* rbtree.c:330-331, 347-348: up while the node is the child on side [d] *)
Fixpoint up_while (d : side) (t : rb) (k : ctx) : option (rb * ctx) :=
  match k with
  | [] => None
  | f :: k' =>
    match f_side f, d with
    | L, L | R, R => up_while d (plug1 t f) k'
    | _, _ => Some (plug1 t f, k')
    end
  end.
(* rbtree.c:318-333 *)
Definition rb_next (n : rb * ctx) : option (rb * ctx) :=
  match n with
  | (T c l x (T _ _ _ _ as r), k) => rb_min r (mkframe R c x l :: k)
  | (t, k) => up_while R t k
  end.
(* rbtree.c:335-350 *)
Definition rb_prev (n : rb * ctx) : option (rb * ctx) :=
  match n with
  | (T c (T _ _ _ _ as l) x r, k) => rb_max l (mkframe L c x r :: k)
  | (t, k) => up_while L t k
  end.
End Rb.

Arguments E {X}. Arguments T {X}. Arguments mkframe {X}.
Arguments f_side {X}. Arguments f_color {X}. Arguments f_x {X}. Arguments f_other {X}.
Arguments mk {X}. Arguments plug1 {X}. Arguments plug {X}. Arguments is_red {X}. Arguments paint {X}.
Arguments child {X}. Arguments elt {X}. Arguments inorder {X}. Arguments size {X}.
Arguments rotate {X}. Arguments set_fixup {X}. Arguments locate {X}. Arguments rank {X}.
Arguments rb_get {X}. Arguments rb_set {X}. Arguments DStop {X}. Arguments DUp {X}.
Arguments del_case {X}. Arguments del_fixup {X}. Arguments leftmost {X}. Arguments rb_remove {X}.
Arguments rb_min {X}. Arguments rb_max {X}. Arguments up_while {X}. Arguments rb_next {X}. Arguments rb_prev {X}.
