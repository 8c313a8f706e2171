(** Model of the names of storage files: db/storage/id.h, and of the scans of a directory at
    startup: db/part/part_mgr_recover.c part_mgr_recover_volume and db/tier/tier.c
    tier_open_volume.  A name is the list of its characters, without the 0 at the end. *)
From Verif Require Import Base DecLib.
Local Open Scope Z_scope.

(** id.h:16-21 *)
Inductive state := COMPLETE | INCOMPLETE | SNAPSHOT.
(** ".incomplete" and ".snapshot" *)
Definition s_incomplete : list Z := [46; 105; 110; 99; 111; 109; 112; 108; 101; 116; 101].
Definition s_snapshot : list Z := [46; 115; 110; 97; 112; 115; 104; 111; 116].
Fixpoint name_eqb (a b : list Z) : bool :=
  match a, b with [], [] => true | x :: a', y :: b' => (x =? y) && name_eqb a' b' | _, _ => false end.
(** id.h:30-40 id_state_of; [None] is -1 *)
Definition id_state_of (name : list Z) : option state :=
  match name with
  | [] => Some COMPLETE
  | _ => if name_eqb name s_incomplete then Some INCOMPLETE else if name_eqb name s_snapshot then Some SNAPSHOT else None
  end.
(** id.h:42-52 id_state *)
Definition id_state (s : state) : list Z := match s with COMPLETE => [] | INCOMPLETE => s_incomplete | SNAPSHOT => s_snapshot end.
(** id.h:54-66 id_of_next with overflow.h:65-71: the number and the rest of the name *)
Fixpoint id_of_next (name : list Z) (id : Z) : option (Z * list Z) :=
  match name with
  | [] => Some (id, [])
  | c :: r =>
    if c =? 46 then Some (id, name)
    else if is_digit c then
      if (id * 10 <=? 9223372036854775807) && (id * 10 + (c - 48) <=? 9223372036854775807) then id_of_next r (id * 10 + (c - 48)) else None
    else None
  end.
(** id.h:68-97 id_of: id, version and state *)
Definition id_of (name : list Z) : option (Z * Z * state) :=
  match id_of_next name 0 with
  | None => None
  | Some (id, []) => Some (id, 0, COMPLETE)
  | Some (id, _ :: r) =>
    match r with
    | [] => None
    | c :: _ =>
      match (if is_digit c then id_of_next r 0 else Some (0, r)) with
      | None => None
      | Some (version, []) => Some (id, version, COMPLETE)
      | Some (version, r') => match id_state_of r' with Some s => Some (id, version, s) | None => None end
      end
    end
  end.
(** id.h:99-130 id_path: the last component of the path, the rest is the directory of the volume *)
Definition id_name (id version : Z) (s : state) : list Z :=
  pad 5 id ++ (if 0 <? version then 46 :: pad 2 version else []) ++ id_state s.

(** opt.h:104-111 opt_int_follow, opt.h:82-88 opt_int_set_next: [psn] is the last number in use *)
Definition psn_follow (psn v : Z) : Z := if psn <? v then v else psn.
Definition psn_next (psn : Z) : Z * Z := (psn + 1, psn + 1).

(** What a scan finds: the last number, the files that are opened (id, version), and the files that
    are removed *)
Record scan := mkscan { sc_psn : Z; sc_open : list (Z * Z); sc_removed : list (list Z) }.
(** part_mgr_recover.c:40-85: one entry of the directory.  id_delete removes the file of id_path *)
Definition part_entry (s : scan) (name : list Z) : scan :=
  match name with
  | c :: _ => if c =? 46 then s else
    match id_of name with
    | None => s
    | Some (psn, version, st) =>
      if 0 <? version then s else
      let p := psn_follow (sc_psn s) psn in
      match st with
      | COMPLETE => mkscan p (sc_open s ++ [(psn, 0)]) (sc_removed s)
      | _ => mkscan p (sc_open s) (sc_removed s ++ [id_name psn 0 st])
      end
    end
  | [] => s
  end.
(** tier.c:142-188 *)
Definition tier_entry (s : scan) (name : list Z) : scan :=
  match name with
  | c :: _ => if c =? 46 then s else
    match id_of name with
    | None => s
    | Some (psn, version, st) =>
      if version =? 0 then s else
      let p := psn_follow (sc_psn s) psn in
      match st with
      | COMPLETE => mkscan p (sc_open s ++ [(psn, version)]) (sc_removed s)
      | _ => mkscan p (sc_open s) (sc_removed s ++ [id_name psn version st])
      end
    end
  | [] => s
  end.
Definition part_scan (psn : Z) (dir : list (list Z)) : scan := fold_left part_entry dir (mkscan psn [] []).
Definition tier_scan (psn : Z) (dir : list (list Z)) : scan := fold_left tier_entry dir (mkscan psn [] []).
(** file.h:89-93 file_create with O_EXCL: it fails if the name exists *)
Definition create_fails (dir : list (list Z)) (name : list Z) : Prop := In name dir.
