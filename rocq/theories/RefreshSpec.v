(** What a restart must find, without the order of operations on files *)
From Verif Require Import Base RefreshModel.
Local Open Scope Z_scope.

(** readdir returns every service file that exists once, in any order *)
Definition listing (d : disk) (order : list (Z * bool)) : Prop :=
  NoDup order /\ forall id inc, In (id, inc) order <-> d (Svc id inc) <> None.

(** after the recovery there is exactly one complete heap file of the partition, and every
    committed transaction is in it, or in a complete object, or it is in the log and above the lsn
    of the heap file (db/db/recover.c:69 skips the records that are not) *)
Definition nothing_lost (d : disk) (low : Z) (commits : list Z) : Prop :=
  exists id from lsn, d (Part id false) = Some (Image from lsn) /\
    (forall id', d (Part id' false) <> None -> id' = id) /\
    (forall x, In x commits ->
       from < x <= lsn \/ (low <= x /\ lsn < x) \/ exists oid a b, d (Obj oid false) = Some (Rows a b) /\ a < x <= b).

(** a history in which the log is not cleaned while a refresh or a flush runs *)
Fixpoint gc_waits (s : st) (l : list event) : Prop :=
  match l with
  | [] => True
  | e :: r => (match e with Gc _ => s_todo s = [] | _ => True end) /\
              match step s e with Some s' => gc_waits s' r | None => True end
  end.
(** the moments between the removal of the old heap file and the last rename of a new file *)
Definition switching (s : st) : Prop :=
  exists n r, s_todo s = Rename (Part n true) (Part n false) :: r \/ s_todo s = Rename (Obj n true) (Obj n false) :: r.
