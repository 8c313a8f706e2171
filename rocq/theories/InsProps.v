(** C82: INSERT inserts the rows it says, each time it is executed. *)
From Verif Require Import Base InsModel InsSpec InsProofs.

(** *** The statement, executed any number of times by a session while the
    partitions' threads execute the requests at any moment, inserts into each
    partition exactly the rows it says, in order, when every request is done.
    Only for tables with no stored generated column, or statements with no
    variable whose generated columns read ordinary columns only. *)
Theorem C82_insert_partial :
  forall cols keys rows P gen part_of vars steps y,
    one_ident cols -> keys_ok cols keys -> generated_not_ident cols ->
    compile cols keys rows = Ok P -> plain cols rows ->
    run_steps P gen part_of steps (init P vars) = Ok y -> s_queue y = [] ->
    forall p, inserted p y = of_part part_of keys p (all_rows gen cols rows steps 0).
Proof.
  intros cols keys rows P gen part_of vars steps y O K N C Pl R Q p.
  destruct (steps_ok cols keys gen part_of O K N rows P C Pl steps _ _ _ _
              (inv_init cols keys part_of P vars) R) as [n' [_ [_ [_ [_ I]]]]].
  specialize (I p). rewrite Q in I. unfold pend in I. cbn [flat_map] in I.
  now rewrite app_nil_r in I.
Qed.

Print Assumptions C82_insert_partial.

(** *** At any moment what a partition holds is the beginning of that list. *)
Theorem C82_prefix_partial :
  forall cols keys rows P gen part_of vars steps y,
    one_ident cols -> keys_ok cols keys -> generated_not_ident cols ->
    compile cols keys rows = Ok P -> plain cols rows ->
    run_steps P gen part_of steps (init P vars) = Ok y ->
    forall p, exists rest,
      inserted p y ++ rest = of_part part_of keys p (all_rows gen cols rows steps 0).
Proof.
  intros cols keys rows P gen part_of vars steps y O K N C Pl R p.
  destruct (steps_ok cols keys gen part_of O K N rows P C Pl steps _ _ _ _
              (inv_init cols keys part_of P vars) R) as [n' [_ [_ [_ [_ I]]]]].
  eexists. exact (I p).
Qed.

Print Assumptions C82_prefix_partial.

(** *** It fails only for a reason: if no row of any execution breaks a NOT
    NULL constraint and no NULL variable is given to a NOT NULL column, every
    step succeeds. *)
Theorem C82_accepts_partial :
  forall cols keys rows P gen part_of vars steps,
    one_ident cols -> keys_ok cols keys -> generated_not_ident cols ->
    compile cols keys rows = Ok P -> plain cols rows ->
    (forall row, In row (all_rows gen cols rows steps 0) -> not_null_ok cols row = true) ->
    (forall env r, In (Run env) steps -> In r rows -> vars_ok env cols r) ->
    exists y, run_steps P gen part_of steps (init P vars) = Ok y.
Proof.
  intros cols keys rows P gen part_of vars steps O K N C Pl HN HV.
  exact (steps_progress cols keys gen part_of O K N rows P C Pl steps _ _ _
           (inv_init cols keys part_of P vars) HN HV).
Qed.

Print Assumptions C82_accepts_partial.

(** *** A row that breaks a NOT NULL constraint is never inserted, whatever the
    table and the statement are. *)
Theorem C82_not_null :
  forall cols keys rows P gen part_of vars steps y p row,
    compile cols keys rows = Ok P ->
    run_steps P gen part_of steps (init P vars) = Ok y ->
    In row (inserted p y) -> not_null_ok cols row = true /\ length row = length cols.
Proof.
  intros cols keys rows P gen part_of vars steps y p row C R I.
  unfold compile in C. destruct (parse_rows cols rows []) as [[s r]| |]; cbn [bind] in C; try discriminate.
  injection C as <-.
  assert (F := fun F0 => steps_not_null _ gen part_of steps _ _ F0 R). specialize (F (Forall_nil _)).
  unfold inserted in I. apply in_map_iff in I. destruct I as [[q x] [<- J]].
  apply filter_In in J. destruct J as [J _].
  rewrite Forall_forall in F. exact (F _ J).
Qed.

Print Assumptions C82_not_null.

(** A table (id serial primary key, a int, b int): two rows, one with a
    variable, executed twice with the variable at 5 and at 6, over two
    partitions, one request of the first execution still waiting when the
    second starts. *)
Local Open Scope Z_scope.
Definition ex_cols : list column :=
  [mkcol true true None None; mkcol false false None None; mkcol false false None (Some 7)].
Definition ex_rows : list (list cell) :=
  [[GDefault; GVar 0; GDefault]; [GValue (Some 11); GValue (Some 3); GValue None]].
Definition ex_part (ks : list Z) : nat := if hd 0 ks <? 10 then 0%nat else 1%nat.
Definition ex_gen (n : nat) : Z := Z.of_nat n.
Definition ex_steps : list step :=
  [Run (fun _ => Some 5); Deliver 0; Run (fun _ => Some 6); Deliver 1; Deliver 0; Deliver 1].

Definition out_of (r : res prog) (gen : nat -> Z) (part_of : list Z -> nat) (steps : list step)
  : option (list (nat * list (option Z)) * nat) :=
  match r with
  | Ok P => match run_steps P gen part_of steps (init P []) with
            | Ok y => Some (s_out y, length (s_queue y))
            | _ => None
            end
  | _ => None
  end.

Example C82_nonvacuous :
  one_ident ex_cols /\ keys_ok ex_cols [0%nat] /\ generated_not_ident ex_cols /\ plain ex_cols ex_rows /\
  out_of (compile ex_cols [0%nat] ex_rows) ex_gen ex_part ex_steps =
    Some ([(0%nat, [Some 0; Some 5; Some 7]); (1%nat, [Some 11; Some 3; None]);
           (0%nat, [Some 1; Some 6; Some 7]); (1%nat, [Some 11; Some 3; None])], 0%nat) /\
  all_rows ex_gen ex_cols ex_rows ex_steps 0 =
    [[Some 0; Some 5; Some 7]; [Some 11; Some 3; None];
     [Some 1; Some 6; Some 7]; [Some 11; Some 3; None]].
Proof.
  repeat apply conj.
  - unfold one_ident. cbn. lia.
  - intros k [<-|[]]. eexists. now split.
  - intros c e I S. cbn in I. repeat (destruct I as [<-|I]; [discriminate S|]). destruct I.
  - left. intros c I. cbn in I. repeat (destruct I as [<-|I]; [reflexivity|]). destruct I.
  - reflexivity.
  - reflexivity.
Qed.

(** The other case of [plain]: (id int primary key, a int as (id * 2) stored),
    executed twice. *)
Definition ex2_cols : list column :=
  [mkcol true false None None; mkcol false false (Some (EBin Z.mul (ECol 0) (EConst 2))) None].
Definition ex2_rows : list (list cell) := [[GValue (Some 4); GDefault]].

Example C82_nonvacuous_generated :
  one_ident ex2_cols /\ keys_ok ex2_cols [0%nat] /\ generated_not_ident ex2_cols /\ plain ex2_cols ex2_rows /\
  out_of (compile ex2_cols [0%nat] ex2_rows) ex_gen ex_part
         [Run (fun _ => None); Run (fun _ => None); Deliver 0; Deliver 0] =
    Some ([(0%nat, [Some 4; Some 8]); (0%nat, [Some 4; Some 8])], 0%nat).
Proof.
  repeat apply conj.
  - unfold one_ident. cbn. lia.
  - intros k [<-|[]]. eexists. now split.
  - intros c e I S. cbn in I. destruct I as [<-|[<-|[]]]; reflexivity.
  - right. repeat apply conj.
    + intros r [<-|[]]. reflexivity.
    + intros c e i d I S R N. cbn in I. destruct I as [<-|[<-|[]]]; [discriminate S|].
      injection S as <-. cbn in R. destruct R as [<-|[]]. cbn in N. injection N as <-. now split.
    + intros c e I S. cbn in I. destruct I as [<-|[<-|[]]]; reflexivity.
  - reflexivity.
Qed.

(** *** FALSE in general.  The full property: for every table with at most one
    identity column and every statement. *)
Definition inserts_what_it_says (cols : list column) (keys : list nat) (rows : list (list cell)) : Prop :=
  forall P gen part_of vars steps y,
    compile cols keys rows = Ok P ->
    run_steps P gen part_of steps (init P vars) = Ok y -> s_queue y = [] ->
    forall p, inserted p y = of_part part_of keys p (all_rows gen cols rows steps 0).

(** A variable given to a table with a stored generated column: CSEND_SHARD
    takes as references what cupdate_store left on the stack.
    (id int primary key, a int, b int as (id * 2) stored), VALUES (1, x, default)
    with x = 42 inserts (1, NULL, 2); VALUES (1, x, y, default) with x = 42 and
    y = 43 puts the number of the generated column in the first. *)
Definition var_cols : list column :=
  [mkcol true false None None; mkcol false false None None;
   mkcol false false (Some (EBin Z.mul (ECol 0) (EConst 2))) None].
Definition var2_cols : list column :=
  [mkcol true false None None; mkcol false false None None; mkcol false false None None;
   mkcol false false (Some (EBin Z.mul (ECol 0) (EConst 2))) None].

Theorem C82_variable_refuted :
  ~ inserts_what_it_says var_cols [0%nat] [[GValue (Some 1); GVar 0; GDefault]] /\
  (forall x, out_of (compile var_cols [0%nat] [[GValue (Some 1); GVar 0; GDefault]]) ex_gen ex_part
               [Run (fun _ => Some x); Deliver 0] = Some ([(0%nat, [Some 1; None; Some 2])], 0%nat)) /\
  (forall env, out_of (compile var2_cols [0%nat] [[GValue (Some 1); GVar 0; GVar 1; GDefault]]) ex_gen ex_part
               [Run env; Deliver 0] = Some ([(0%nat, [Some 1; Some 3; None; Some 2])], 0%nat)).
Proof.
  repeat apply conj.
  - intros H.
    specialize (H _ ex_gen ex_part [] [Run (fun _ => Some 42); Deliver 0] _ eq_refl eq_refl eq_refl 0%nat).
    discriminate H.
  - reflexivity.
  - reflexivity.
Qed.

Print Assumptions C82_variable_refuted.

(** A generated column computed from a variable reads the number of the
    reference: b int as (a * 10) stored, a = x.  Whatever x is, b is 0. *)
Definition read_cols : list column :=
  [mkcol true false None None; mkcol false false None None;
   mkcol false false (Some (EBin Z.mul (ECol 1) (EConst 10))) None].

Theorem C82_generated_variable_refuted :
  ~ inserts_what_it_says read_cols [0%nat] [[GValue (Some 1); GVar 0; GDefault]] /\
  (forall x, out_of (compile read_cols [0%nat] [[GValue (Some 1); GVar 0; GDefault]]) ex_gen ex_part
               [Run (fun _ => Some x); Deliver 0] = Some ([(0%nat, [Some 1; None; Some 0])], 0%nat)).
Proof.
  split.
  - intros H.
    specialize (H _ ex_gen ex_part [] [Run (fun _ => Some 42); Deliver 0] _ eq_refl eq_refl eq_refl 0%nat).
    discriminate H.
  - reflexivity.
Qed.

Print Assumptions C82_generated_variable_refuted.

(** The same statement executed again (a loop or a function called again)
    starts from the rows the previous execution left:
    (id serial primary key, a int default 0 as (a + 1) stored), VALUES (default, 10)
    inserts 11, then 12; and 12 twice if the partition's thread is late. *)
Definition loop_cols : list column :=
  [mkcol true true None None; mkcol false false (Some (EBin Z.add (ECol 1) (EConst 1))) (Some 0)].
Definition loop_rows : list (list cell) := [[GDefault; GValue (Some 10)]].

Theorem C82_again_refuted :
  ~ inserts_what_it_says loop_cols [0%nat] loop_rows /\
  out_of (compile loop_cols [0%nat] loop_rows) ex_gen ex_part
    [Run (fun _ => None); Deliver 0; Run (fun _ => None); Deliver 0] =
    Some ([(0%nat, [Some 0; Some 11]); (0%nat, [Some 1; Some 12])], 0%nat) /\
  out_of (compile loop_cols [0%nat] loop_rows) ex_gen ex_part
    [Run (fun _ => None); Run (fun _ => None); Deliver 0; Deliver 0] =
    Some ([(0%nat, [Some 0; Some 12]); (0%nat, [Some 1; Some 12])], 0%nat).
Proof.
  repeat apply conj; try reflexivity.
  intros H.
  specialize (H _ ex_gen ex_part [] [Run (fun _ => None); Deliver 0; Run (fun _ => None); Deliver 0]
                _ eq_refl eq_refl eq_refl 0%nat).
  discriminate H.
Qed.

Print Assumptions C82_again_refuted.

(** A generated column that reads the identity column sees NULL when the number
    is generated: (id serial primary key, a int as (id * 2) stored). *)
Definition ident_cols : list column :=
  [mkcol true true None None; mkcol false false (Some (EBin Z.mul (ECol 0) (EConst 2))) None].

Theorem C82_identity_refuted :
  ~ inserts_what_it_says ident_cols [0%nat] [[GDefault; GDefault]] /\
  (forall gen, out_of (compile ident_cols [0%nat] [[GDefault; GDefault]]) gen (fun _ => 0%nat)
                 [Run (fun _ => None); Deliver 0] = Some ([(0%nat, [Some (gen 0%nat); None])], 0%nat)).
Proof.
  split.
  - intros H.
    specialize (H _ ex_gen ex_part [] [Run (fun _ => None); Deliver 0] _ eq_refl eq_refl eq_refl 0%nat).
    discriminate H.
  - reflexivity.
Qed.

Print Assumptions C82_identity_refuted.

(** A second identity column (ALTER TABLE ADD COLUMN b serial) always takes the
    number of the first, also when a value is given for it. *)
Definition two_cols : list column :=
  [mkcol true true None None; mkcol false true None None].

Theorem C82_second_identity_refuted :
  ~ inserts_what_it_says two_cols [0%nat] [[GValue (Some 1); GValue (Some 99)]] /\
  out_of (compile two_cols [0%nat] [[GValue (Some 1); GValue (Some 99)]]) ex_gen ex_part
    [Run (fun _ => None); Deliver 0] = Some ([(0%nat, [Some 1; Some 1])], 0%nat).
Proof.
  split.
  - intros H.
    specialize (H _ ex_gen ex_part [] [Run (fun _ => None); Deliver 0] _ eq_refl eq_refl eq_refl 0%nat).
    discriminate H.
  - reflexivity.
Qed.

Print Assumptions C82_second_identity_refuted.
