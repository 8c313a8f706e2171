(** Model of replication: sync/repl/streamer.c (the primary's side), sync/repl/primary.c with
    system/session/session_replay.c (the replica's side), and what they use of the log of the
    primary (db/wal/wal.c, wal_cursor.c, runtime/lib/id_mgr.h).

    Simplified: a record of the log is its LSN and what it does (an opaque list of bytes, see C13 for
    records); LSNs are not bounded by 2^64; a write of the log is one step (C15); one primary with
    one replica to which it is the primary (Am-Id is compared on every request and reply); a
    connection is a number, what is sent over it arrives as it is or not at all. *)
From Verif Require Import Base.
Local Open Scope nat_scope.

Definition payload := list Z.
Notation rec := (nat * payload)%type.
Record wfile := mkwf { wf_id : nat; wf_recs : list rec }.

(** ** the log of the primary *)
(** wal.c:44-58 wal_slots, id_mgr.h:188-220 id_mgr_gc_between, wal.c:106-134 wal_gc *)
Definition slots_min (slots : list nat) (min : nat) : nat := fold_left (fun m s => if m <? s then s else m) slots min.
Fixpoint gc_files (fs : list wfile) (id : nat) : list wfile :=
  match fs with
  | _ :: ((f :: _) as r) => if wf_id f <=? id then gc_files r id else fs
  | _ => fs
  end.
(** id_mgr.h:103-115, 150-186 *)
Fixpoint file_find (fs : list wfile) (v : nat) (r : option wfile) : option wfile :=
  match fs with [] => r | f :: fs => if v <? wf_id f then r else file_find fs v (Some f) end.
Fixpoint file_next (fs : list wfile) (v : nat) : option wfile :=
  match fs with [] => None | f :: fs => if v <? wf_id f then Some f else file_next fs v end.
(** wal.c: a record is added to the last file *)
Fixpoint file_append (fs : list wfile) (r : rec) : list wfile :=
  match fs with
  | [] => []
  | [f] => [mkwf (wf_id f) (wf_recs f ++ [r])]
  | f :: fs => f :: file_append fs r
  end.

(** ** wal_cursor.c *)
(** the open file (it can still be read when it is removed) and the next record in it *)
Record rcursor := mkrc { rc_id : nat; rc_recs : list rec; rc_off : nat }.
(** wal_cursor.c:103-128: what the file has now (file_update_size) *)
Definition rc_refresh (fs : list wfile) (c : rcursor) : list rec :=
  match find (fun f => wf_id f =? rc_id c) fs with Some f => wf_recs f | None => rc_recs c end.
(** wal_cursor.c:97-151 wal_cursor_read with file_next; the fuel bounds the number of files *)
Fixpoint rc_read (fuel : nat) (fs : list wfile) (c : rcursor) : option rec * rcursor :=
  let recs := rc_refresh fs c in
  match nth_error recs (rc_off c) with
  | Some r => (Some r, mkrc (rc_id c) recs (S (rc_off c)))
  | None => match fuel, file_next fs (rc_id c) with
            | S fuel, Some f => rc_read fuel fs (mkrc (wf_id f) (wf_recs f) 0)
            | _, _ => (None, mkrc (rc_id c) recs (rc_off c))
            end
  end.
(** wal_cursor.c:56-70: skip the records before the LSN *)
Fixpoint rc_rewind (n : nat) (fs : list wfile) (lsn : nat) (c : rcursor) : rcursor :=
  match n with
  | O => c
  | S n => match rc_read (length fs) fs c with
           | (Some r, c') => if lsn <=? fst r then mkrc (rc_id c') (rc_recs c') (rc_off c' - 1) else rc_rewind n fs lsn c'
           | (None, c') => c'
           end
  end.
(** wal_cursor.c:33-71 wal_cursor_open (the LSN is not 0); None: the cursor has no file *)
Definition rc_open (fs : list wfile) (lsn : nat) : option rcursor :=
  match file_find fs lsn None with
  | None => None
  | Some f => Some (rc_rewind (S (length (flat_map wf_recs fs))) fs lsn (mkrc (wf_id f) (wf_recs f) 0))
  end.
(** wal_cursor.c:160-178 wal_cursor_readahead: [k] records at most, as their sizes allow *)
Fixpoint rc_readahead (k : nat) (fs : list wfile) (c : rcursor) : list rec * rcursor :=
  match k with
  | O => ([], c)
  | S k => match rc_read (length fs) fs c with
           | (None, c') => ([], c')
           | (Some r, c') => let (l, c2) := rc_readahead k fs c' in (r :: l, c2)
           end
  end.

(** ** the two servers *)
(** streamer.h: the connection, the last LSN sent, whether a reply is awaited, the cursor *)
Record stream := mkstream { s_conn : nat; s_lsn : nat; s_wait : bool; s_cur : option rcursor }.
(** a request with records: Am-Lsn, the records *)
Record request := mkreq { q_conn : nat; q_lsn : nat; q_recs : list rec }.
Record repl := mkrepl {
  p_files : list wfile; p_lsn : nat;     (** the log of the primary *)
  p_slot : nat;                          (** the WalSlot of the replica *)
  p_stream : option stream;
  n_conn : nat;                          (** the number of the next connection *)
  n_join : option (nat * nat);           (** the reply to the first request of a connection: its LSN *)
  n_net : list request;                  (** requests on their way *)
  n_reply : list (nat * nat);            (** replies on their way: connection, LSN *)
  r_log : list payload;                  (** what the replica has executed, in order; its LSN is the length *)
  r_sess : list (nat * list rec) }.      (** requests the replica executes: connection, records left *)

Inductive event :=
  | PWrite (a : payload)                 (** a transaction is committed on the primary *)
  | PRotate                              (** the primary starts a new file *)
  | PGc (others : list nat) (min : nat)  (** wal_gc with the other slots *)
  | PRestart                             (** the primary is restarted *)
  | Join                                 (** the primary connects, the replica answers with its LSN *)
  | Connect                              (** streamer_connect gets this answer *)
  | Drop                                 (** the primary gives up the connection *)
  | Send (k : nat)                       (** streamer_collect, streamer_write *)
  | Deliver (i : nat)                    (** the replica gets request [i] and validates it *)
  | Apply (i : nat)                      (** session [i] executes its next record *)
  | Fail (i : nat)                       (** session [i] fails *)
  | Finish (i : nat)                     (** session [i] has executed all and replies *)
  | Reply (i : nat)                      (** streamer_next *)
  | RRestart (n : nat).                  (** the replica is restarted with the first [n] records *)

Definition remove_nth {A} (i : nat) (l : list A) : list A := firstn i l ++ skipn (S i) l.
Fixpoint update_nth {A} (i : nat) (x : A) (l : list A) : list A :=
  match l, i with [], _ => [] | _ :: l, O => x :: l | y :: l, S i => y :: update_nth i x l end.
Definition list_min (fs : list wfile) : nat := match fs with [] => 0 | f :: _ => wf_id f end.

(** streamer.c:150, 163: the slot is attached to the log while the streamer is connected *)
Definition attached (s : repl) : list nat := match p_stream s with Some _ => [p_slot s] | None => [] end.

Definition rstep (s : repl) (e : event) : option repl :=
  match e with
  | PWrite a => Some (mkrepl (file_append (p_files s) (S (p_lsn s), a)) (S (p_lsn s)) (p_slot s) (p_stream s) (n_conn s) (n_join s) (n_net s) (n_reply s) (r_log s) (r_sess s))
  (** wal.c:70-104, wal_mgr: the new file has the next LSN as id; files are only added when the last is large *)
  | PRotate => match rev (p_files s) with
               | f :: _ => match wf_recs f with
                           | [] => None
                           | _ => Some (mkrepl (p_files s ++ [mkwf (S (p_lsn s)) []]) (p_lsn s) (p_slot s) (p_stream s) (n_conn s) (n_join s) (n_net s) (n_reply s) (r_log s) (r_sess s))
                           end
               | [] => None
               end
  (** a file that is open keeps its contents *)
  | PGc others min => Some (mkrepl (gc_files (p_files s) (slots_min (attached s ++ others) min)) (p_lsn s) (p_slot s)
                                   (option_map (fun t => mkstream (s_conn t) (s_lsn t) (s_wait t) (option_map (fun c => mkrc (rc_id c) (rc_refresh (p_files s) c) (rc_off c)) (s_cur t))) (p_stream s))
                                   (n_conn s) (n_join s) (n_net s) (n_reply s) (r_log s) (r_sess s))
  (** replica.h:24-33, wal_slot.h:24-31: the slot starts at 0 *)
  | PRestart => Some (mkrepl (p_files s) (p_lsn s) 0 None (n_conn s) None (n_net s) (n_reply s) (r_log s) (r_sess s))
  (** streamer.c:135-143, primary.c:64-73, 106-108 *)
  | Join => match p_stream s, n_join s with
            | None, None => Some (mkrepl (p_files s) (p_lsn s) (p_slot s) None (S (n_conn s)) (Some (n_conn s, length (r_log s))) (n_net s) (n_reply s) (r_log s) (r_sess s))
            | _, _ => None
            end
  (** streamer.c:143-157 streamer_connect, wal.c:448-455 wal_in_range *)
  | Connect => match n_join s with
               | Some (c, lsn) => let ok := (lsn =? 0) || (list_min (p_files s) <=? lsn) in
                   if ok then Some (mkrepl (p_files s) (p_lsn s) lsn (Some (mkstream c lsn false (rc_open (p_files s) (S lsn)))) (n_conn s) None (n_net s) (n_reply s) (r_log s) (r_sess s))
                   else Some (mkrepl (p_files s) (p_lsn s) (p_slot s) None (n_conn s) None (n_net s) (n_reply s) (r_log s) (r_sess s))
               | None => None
               end
  (** streamer.c:160-168 streamer_close; the slot keeps its LSN *)
  | Drop => Some (mkrepl (p_files s) (p_lsn s) (p_slot s) None (n_conn s) None (n_net s) (n_reply s) (r_log s) (r_sess s))
  (** streamer.c:25-34, 74-92; with nothing to send it waits *)
  | Send k => match p_stream s with
              | Some (mkstream c lsn false (Some cur)) =>
                  let (l, cur') := rc_readahead k (p_files s) cur in
                  match l with
                  | [] => None
                  | _ => Some (mkrepl (p_files s) (p_lsn s) (p_slot s) (Some (mkstream c (fst (last l (0, []))) true (Some cur'))) (n_conn s) (n_join s)
                                      (n_net s ++ [mkreq c (p_slot s) l]) (n_reply s) (r_log s) (r_sess s))
                  end
              | _ => None
              end
  (** primary.c:86-128 primary_next: the LSN of the request is compared with the LSN of the server *)
  | Deliver i => match nth_error (n_net s) i with
                 | Some q => Some (mkrepl (p_files s) (p_lsn s) (p_slot s) (p_stream s) (n_conn s) (n_join s) (remove_nth i (n_net s)) (n_reply s) (r_log s)
                                          (if q_lsn q =? length (r_log s) then r_sess s ++ [(q_conn q, q_recs q)] else r_sess s))
                 | None => None
                 end
  (** session_replay.c:42-83: one record is executed and gets the next LSN of the replica (its own LSN is not looked at) *)
  | Apply i => match nth_error (r_sess s) i with
               | Some (c, r :: l) => Some (mkrepl (p_files s) (p_lsn s) (p_slot s) (p_stream s) (n_conn s) (n_join s) (n_net s) (n_reply s) (r_log s ++ [snd r]) (update_nth i (c, l) (r_sess s)))
               | _ => None
               end
  | Fail i => match nth_error (r_sess s) i with
              | Some _ => Some (mkrepl (p_files s) (p_lsn s) (p_slot s) (p_stream s) (n_conn s) (n_join s) (n_net s) (n_reply s) (r_log s) (remove_nth i (r_sess s)))
              | None => None
              end
  (** primary.c:81-83, 37-49 *)
  | Finish i => match nth_error (r_sess s) i with
                | Some (c, []) => Some (mkrepl (p_files s) (p_lsn s) (p_slot s) (p_stream s) (n_conn s) (n_join s) (n_net s) (n_reply s ++ [(c, length (r_log s))]) (r_log s) (remove_nth i (r_sess s)))
                | _ => None
                end
  (** streamer.c:170-183 streamer_next *)
  | Reply i => match nth_error (n_reply s) i, p_stream s with
               | Some (c, lsn), Some (mkstream c' sl true cur) =>
                   if c =? c' then
                     if lsn =? sl then Some (mkrepl (p_files s) (p_lsn s) lsn (Some (mkstream c' lsn false cur)) (n_conn s) (n_join s) (n_net s) (remove_nth i (n_reply s)) (r_log s) (r_sess s))
                     else Some (mkrepl (p_files s) (p_lsn s) (p_slot s) None (n_conn s) (n_join s) (n_net s) (remove_nth i (n_reply s)) (r_log s) (r_sess s))
                   else None
               | _, _ => None
               end
  (** the connections of the replica are gone with it *)
  | RRestart n => Some (mkrepl (p_files s) (p_lsn s) (p_slot s) None (n_conn s) None [] [] (firstn n (r_log s)) [])
  end.
(** a replica that starts with the first [n] records of a primary with the log [log], in one file *)
Definition number (n : nat) (l : list payload) : list rec := combine (seq (S n) (length l)) l.
Definition rinit (log : list payload) (n : nat) : repl := mkrepl [mkwf 1 (number 0 log)] (length log) 0 None 0 None [] [] (firstn n log) [].
(** a history; what the primary has committed, in order *)
Fixpoint rrun (s : repl) (es : list event) : option repl :=
  match es with [] => Some s | e :: es => match rstep s e with Some s' => rrun s' es | None => None end end.
