(** Model of the time of a thread: runtime/base/timer_mgr.h, timer_mgr.c, the part of the main loop
    (task.c:87-148) that runs timers and waits, and sleep() (vm/func/fn_misc.c:34-42,
    runtime/base/runtime.h:66-82, 126-132, wait.h:46-75).
    Simplified: milliseconds only (time_ns, time_us and time_ms are set together); the clock does not go
    back; the growth of the array timers is not modelled; the coroutines are the events between two rounds
    of the loop; what a wait does besides its timer is not modelled (see Bus, Lock). *)
From Verif Require Import Base.

(** the conversion to int *)
Definition int32 (v : Z) : Z := (v + 2 ^ 31) mod 2 ^ 32 - 2 ^ 31.

Record timer := { tid : nat; timeout : Z; seq : Z;
                  begun : Z; span : Z }.    (* ghosts: the clock at the start of the wait and its length *)
(** a fired timer, and the clock then *)
Record fire := { f_t : timer; f_at : Z }.
Record state := {
  now : Z;                              (* the clock, CLOCK_REALTIME_COARSE *)
  time_ms : Z; time_cached : bool;      (* timer_mgr.h:34-43 *)
  timers : list timer; timers_seq : Z;
  (* the history, not read by any step *)
  fired : list fire; stopped : list nat; forever : list nat; reads : list (Z * Z) }.

(** timer_mgr.c:44-53 timer_mgr_update *)
Definition update (s : state) : state :=
  if time_cached s then s
  else {| now := now s; time_ms := now s; time_cached := true; timers := timers s; timers_seq := timers_seq s;
          fired := fired s; stopped := stopped s; forever := forever s; reads := reads s |}.
(** timer_mgr.h:51-55 timer_mgr_reset *)
Definition reset (s : state) : state :=
  {| now := now s; time_ms := time_ms s; time_cached := false; timers := timers s; timers_seq := timers_seq s;
     fired := fired s; stopped := stopped s; forever := forever s; reads := reads s |}.
(** timer_mgr.c:85-99 timer_mgr_cmp: a > b *)
Definition cmp_gt (a b : timer) : bool :=
  if timeout a =? timeout b then seq b <? seq a else timeout b <? timeout a.
(** qsort, timer_mgr.c:118 *)
Fixpoint insert (t : timer) (l : list timer) : list timer :=
  match l with
  | [] => [t]
  | x :: l' => if cmp_gt t x then x :: insert t l' else t :: l
  end.
Definition qsort (l : list timer) : list timer := fold_right insert [] l.
(** timer_mgr.c:101-120 timer_mgr_add, called by timer_mgr.h:108-113 timer_start *)
Definition timer_start (s : state) (id : nat) (interval : Z) : state :=
  let s := update s in
  let t := {| tid := id; timeout := time_ms s + interval; seq := timers_seq s; begun := now s; span := interval |} in
  {| now := now s; time_ms := time_ms s; time_cached := time_cached s; timers := qsort (timers s ++ [t]); timers_seq := timers_seq s + 1;
     fired := fired s; stopped := stopped s; forever := forever s; reads := reads s |}.
(** timer_mgr.c:122-139 timer_mgr_remove, timer_mgr.h:115-121 timer_stop: only if the timer is active *)
Definition active (s : state) (id : nat) : bool := existsb (fun t => Nat.eqb (tid t) id) (timers s).
Definition timer_stop (s : state) (id : nat) : state :=
  if active s id then
    {| now := now s; time_ms := time_ms s; time_cached := time_cached s; timers := filter (fun t => negb (Nat.eqb (tid t) id)) (timers s); timers_seq := timers_seq s;
       fired := fired s; stopped := stopped s ++ [id]; forever := forever s; reads := reads s |}
  else s.
(** timer_mgr.c:63-71 the loop of timer_mgr_step *)
Fixpoint hits (time : Z) (l : list timer) : list timer :=
  match l with
  | [] => []
  | t :: l => if time <? timeout t then [] else t :: hits time l
  end.
(** timer_mgr.c:55-83 timer_mgr_step *)
Definition timer_mgr_step (s : state) : state :=
  let h := hits (time_ms s) (timers s) in
  {| now := now s; time_ms := time_ms s; time_cached := time_cached s; timers := skipn (length h) (timers s); timers_seq := timers_seq s;
     fired := fired s ++ map (fun t => {| f_t := t; f_at := now s |}) h; stopped := stopped s; forever := forever s; reads := reads s |}.
(** task.c:117-131: the timeout of epoll_wait, None: no limit (UINT32_MAX is -1) *)
Definition poll_timeout (s : state) : option Z :=
  match timers s with
  | [] => None
  | t :: _ => let diff := int32 (timeout t - time_ms s) in Some (if diff <=? 0 then 0 else diff)
  end.
(** task.c:114-136: the time is updated before the timers run, and before the wait *)
Definition loop_timers (s : state) : state * option Z :=
  let s := reset s in
  match timers s with
  | [] => (s, None)
  | _ => let s := update s in (timer_mgr_step s, poll_timeout s)
  end.
Definition pass (s : state) (d : Z) : state :=
  {| now := now s + d; time_ms := time_ms s; time_cached := time_cached s; timers := timers s; timers_seq := timers_seq s;
     fired := fired s; stopped := stopped s; forever := forever s; reads := reads s |}.

Inductive event :=
| ERun (d : Z)               (* coroutines or other rounds of the loop with messages pending (task.c:111-112) take time *)
| ESleep (id : nat) (v : Z)  (* sleep(v), v: int64_t *)
| EStop (id : nat)           (* the wait ends by its event or is cancelled: wait.h:70-71 *)
| ETime                      (* timer_mgr.h:64-69 timer_mgr_time_ms *)
| ELoop (w : Z).             (* the end of a round of the loop; epoll_wait returns after [w] *)
(** fn_misc.c:40: the argument is converted to int; runtime.h:73-76: a negative time waits without a timer *)
Definition sleep_ms (v : Z) : Z := int32 v.
Definition exec (s : state) (e : event) : state :=
  match e with
  | ERun d => pass s d
  | ESleep id v =>
      if 0 <=? sleep_ms v then timer_start s id (sleep_ms v)
      else {| now := now s; time_ms := time_ms s; time_cached := time_cached s; timers := timers s; timers_seq := timers_seq s;
              fired := fired s; stopped := stopped s; forever := forever s ++ [id]; reads := reads s |}
  | EStop id => timer_stop s id
  | ETime => let s := update s in
             {| now := now s; time_ms := time_ms s; time_cached := time_cached s; timers := timers s; timers_seq := timers_seq s;
                fired := fired s; stopped := stopped s; forever := forever s; reads := reads s ++ [(time_ms s, now s)] |}
  | ELoop w => pass (fst (loop_timers s)) w
  end.
(** time passes forward; epoll_wait does not return later than its timeout *)
Definition okev (s : state) (e : event) : Prop :=
  match e with
  | ERun d => 0 <= d
  | ESleep id v => - 2 ^ 63 <= v < 2 ^ 63
  | ELoop w => 0 <= w /\ match snd (loop_timers s) with Some t => w <= t | None => True end
  | _ => True
  end.
(** task.c:95-96 *)
Definition init (clock : Z) : state :=
  {| now := clock; time_ms := clock; time_cached := true; timers := []; timers_seq := 0; fired := []; stopped := []; forever := []; reads := [] |}.
Inductive run (clock : Z) : list event -> state -> Prop :=
| run_init : run clock [] (init clock)
| run_snoc evs s e : run clock evs s -> okev s e -> run clock (evs ++ [e]) (exec s e).
