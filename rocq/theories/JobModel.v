(** Model of the background jobs: runtime/lib/job_mgr.c, job_worker.c, job.h, runtime/base/cond_var.h.

    Simplified: what a worker does while it holds the mutex is one step; a job is a number, what it computes and
    the event its requester waits for are left out; jobs_count does not overflow; pthread_cond_signal wakes at
    least one thread that waits, pthread_cond_wait may return at any time, as POSIX has it. *)
From Verif Require Import Base.

(** job_mgr.h:16-25 *)
Record mgr := Mgr { jobs : list Z; jobs_count : Z; shutdown : bool }.
(** job_mgr.c:17-27 job_mgr_init *)
Definition init : mgr := Mgr [] 0 false.
(** a thread of job_worker.c:17-28: before the lock of job_mgr_next, in cond_var_wait, in job_run, returned *)
Inductive worker := Idle | Sleeping | Working (j : Z) | Gone.
(** job_mgr.c:36-47 job_mgr_start, the threads *)
Definition start (m : mgr) (count : Z) : mgr * list worker := (Mgr (jobs m) (jobs_count m) false, repeat Idle (Z.to_nat count)).
(** job_mgr.c:49-56 job_mgr_shutdown; pthread_cond_broadcast *)
Definition stop (m : mgr) : mgr := Mgr (jobs m) (jobs_count m) true.
Definition broadcast (ws : list worker) : list worker := map (fun w => match w with Sleeping => Idle | _ => w end) ws.
(** job_mgr.c:72-80 job_mgr_add *)
Definition add (m : mgr) (j : Z) : mgr := Mgr (jobs m ++ [j]) (jobs_count m + 1) (shutdown m).
(** job_mgr.c:82-105 job_mgr_next, from the lock to where it is released: list_pop of an empty list is undefined *)
Inductive outcome := Took (j : Z) | Leaves | Waits.
Definition next (m : mgr) : res (outcome * mgr) :=
  if jobs_count m >? 0 then
    match jobs m with j :: q => Ok (Took j, Mgr q (jobs_count m - 1) (shutdown m)) | [] => UB end
  else if shutdown m then Ok (Leaves, m)
  else Ok (Waits, m).
Definition after (o : outcome) : worker := match o with Took j => Working j | Leaves => Gone | Waits => Sleeping end.
(** waking threads that wait *)
Definition wake (w w' : worker) : Prop := w' = w \/ (w = Sleeping /\ w' = Idle).
Definition signal (ws ws' : list worker) : Prop := Forall2 wake ws ws' /\ (In Sleeping ws -> ws' <> ws).
(** opt.h:221-223, config.c:59: the values of the option jobs *)
Definition accepted (jobs : Z) : bool := negb (jobs =? 0).

Inductive event := Added (j : Z) | Started (j : Z) | Finished (j : Z) | Slept | Left | Woken | Stop | Start (count : Z).
Definition sys := (mgr * list worker)%type.
Inductive step : sys -> event -> sys -> Prop :=
  | do_add m ws ws' j : signal ws ws' -> step (m, ws) (Added j) (add m j, ws')
  | do_next m a b o m' : next m = Ok (o, m') ->
      step (m, a ++ Idle :: b) (match o with Took j => Started j | Leaves => Left | Waits => Slept end) (m', a ++ after o :: b)
  | do_wake m ws ws' : Forall2 wake ws ws' -> step (m, ws) Woken (m, ws')
  (* job.h:37-43 job_run *)
  | do_finish m a b j : step (m, a ++ Working j :: b) (Finished j) (m, a ++ Idle :: b)
  | do_stop m ws : step (m, ws) Stop (stop m, broadcast ws)
  (* job_mgr.c:58-70 job_mgr_stop has waited for all threads *)
  | do_start m ws n : Forall (eq Gone) ws -> step (m, ws) (Start n) (start m n).
Inductive run : sys -> list event -> sys -> Prop :=
  | R_nil s : run s [] s
  | R_step s e s1 l s2 : step s e s1 -> run s1 l s2 -> run s (e :: l) s2.
