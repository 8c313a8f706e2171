(** C51: the hash table of the credential cache, of the functions and of the time zones *)
From Verif Require Import Base HtModel HtSpec HtProofs.
Local Open Scope nat_scope.

Lemma start_ok size hs ps : 3 <= size -> inv0 (ht_create size hs ps) [] /\ loaded (ht_create size hs ps) [].
Proof.
  intros H. split; [apply create_inv; lia|]. unfold loaded, h_size, ht_create; cbn [h_idx length]. rewrite repeat_length. lia.
Qed.

(** The property is false: after two nodes with the same start slot were added and the first was
    removed, the second is not found *)
Theorem C51_refuted :
  exists ops t n h,
    sensible ops /\ ht_run (ht_create 256 (fun _ => 0%Z) (fun _ => 0)) ops = Some t /\
    In (n, h) (live ops) /\ ht_get t h (Nat.eqb n) = Some None.
Proof.
  exists [Add 0 7; Add 1 263; Del 0]. eexists. exists 1, 263%Z.
  split; [cbn; intuition discriminate|]. split; [vm_compute; reflexivity|]. split; [now left|]. vm_compute. reflexivity.
Qed.
Print Assumptions C51_refuted.

(** What holds for every history, with removals: no operation runs forever or fails its
    assertion, and a lookup returns either nothing or a node that is in the table, has the hash
    and passes the comparison *)
Theorem C51_lookup_sound_partial :
  forall size hs ps ops, 3 <= size -> sensible ops ->
  exists t, ht_run (ht_create size hs ps) ops = Some t /\
  forall hash cmp, exists r, ht_get t hash cmp = Some r /\ (forall n, r = Some n -> matches ops hash cmp n).
Proof.
  intros size hs ps ops Hs Hsen. destruct (start_ok size hs ps Hs) as [I0 L0].
  destruct (run_inv ops _ _ I0 L0 Hsen) as (t & E & I & [L1 L2] & _). exists t. split; [exact E|].
  intros hash cmp. destruct (get_spec t _ hash cmp I) as (r & Er & Hr).
  { unfold live in *. pose proof (half_lt _ L1). lia. }
  exists r. split; [exact Er|]. intros n ->. unfold matches, live. tauto.
Qed.
Print Assumptions C51_lookup_sound_partial.

(** Without removals every lookup is exact: it finds a node if and only if there is one that
    matches (the time zones are only added; functions are only removed by function_mgr_del, that
    nothing calls) *)
Theorem C51_no_removals_partial :
  forall size hs ps ops, 3 <= size -> sensible ops -> no_removals ops ->
  exists t, ht_run (ht_create size hs ps) ops = Some t /\
  forall hash cmp,
    (exists n, ht_get t hash cmp = Some (Some n) /\ matches ops hash cmp n) \/
    (ht_get t hash cmp = Some None /\ forall n, ~ matches ops hash cmp n).
Proof.
  intros size hs ps ops Hs Hsen Hno. destruct (start_ok size hs ps Hs) as [I0 L0].
  destruct (run_inv ops _ _ I0 L0 Hsen) as (t & E & I & [L1 L2] & F). exists t. split; [exact E|].
  specialize (F Hno ltac:(intros ? ? [])).
  intros hash cmp. destruct (get_spec t _ hash cmp I) as (r & Er & Hr).
  { pose proof (half_lt _ L1). lia. }
  destruct r as [n|].
  - left. exists n. split; [exact Er|]. unfold matches, live. tauto.
  - right. split; [exact Er|]. intros n [H1 H2]. rewrite (Hr n H1 (F n hash H1)) in H2. discriminate.
Qed.
Print Assumptions C51_no_removals_partial.

(** When the table grows every node is found again, whatever was removed before *)
Theorem C51_growth_repairs_partial :
  forall size hs ps ops n h, 3 <= size -> sensible (ops ++ [Add n h]) ->
  forall t, ht_run (ht_create size hs ps) ops = Some t -> ht_full t = true ->
  exists t', ht_add t n h = Some t' /\
  forall hash cmp,
    (exists m, ht_get t' hash cmp = Some (Some m) /\ matches (ops ++ [Add n h]) hash cmp m) \/
    (ht_get t' hash cmp = Some None /\ forall m, ~ matches (ops ++ [Add n h]) hash cmp m).
Proof.
  intros size hs ps ops n h Hs Hsen t E Hf. destruct (start_ok size hs ps Hs) as [I0 L0].
  assert (S1 : sensible ops /\ ~ In n (map fst (live ops)) /\ live (ops ++ [Add n h]) = (n, h) :: live ops).
  { unfold sensible, live in *. revert Hsen. generalize (@nil (nat * Z)). clear.
    induction ops as [|[m hm|m] r IH]; intros l; cbn [app sensible_from live_from].
    - intros [H _]. auto.
    - intros [H1 H2]. destruct (IH _ H2) as (A & B & C). auto.
    - intros [H1 H2]. destruct (IH _ H2) as (A & B & C). auto. }
  destruct S1 as (S1 & S2 & S3).
  destruct (run_inv ops _ _ I0 L0 S1) as (t1 & E1 & I & Ld & _). assert (t1 = t) by congruence. subst t1.
  fold (live ops) in I, Ld. destruct (add_spec t _ n h I Ld S2) as (t' & E' & I' & [L1 L2] & _ & F). specialize (F Hf).
  exists t'. split; [exact E'|]. intros hash cmp. unfold matches. rewrite S3. destruct (get_spec t' _ hash cmp I') as (r & Er & Hr).
  { pose proof (half_lt _ L1). lia. }
  destruct r as [m|].
  - left. exists m. split; [exact Er|]. tauto.
  - right. split; [exact Er|]. intros m [H1 H2]. rewrite (Hr m H1 (F m hash H1)) in H2. discriminate.
Qed.
Print Assumptions C51_growth_repairs_partial.

(** A removal loses nothing if the next slot of the array is empty *)
Theorem C51_end_of_run_partial :
  forall size hs ps ops n, 3 <= size -> sensible (ops ++ [Del n]) ->
  forall t, ht_run (ht_create size hs ps) ops = Some t ->
  (forall m h, In (m, h) (live ops) -> ht_get t h (Nat.eqb m) = Some (Some m)) ->
  slot (h_idx t) ((h_pos t n + 1) mod h_size t) = None ->
  exists t', ht_delete t n = Some t' /\
  forall m h, In (m, h) (live (ops ++ [Del n])) -> ht_get t' h (Nat.eqb m) = Some (Some m).
Proof.
  intros size hs ps ops n Hs Hsen t E Hall Hnext. destruct (start_ok size hs ps Hs) as [I0 L0].
  assert (S1 : sensible ops /\ In n (map fst (live ops)) /\
            live (ops ++ [Del n]) = filter (fun x => negb (fst x =? n)) (live ops)).
  { unfold sensible, live in *. revert Hsen. generalize (@nil (nat * Z)). clear.
    induction ops as [|[m hm|m] r IH]; intros l; cbn [app sensible_from live_from].
    - intros [H _]. auto.
    - intros [H1 H2]. destruct (IH _ H2) as (A & B & C). auto.
    - intros [H1 H2]. destruct (IH _ H2) as (A & B & C). auto. }
  destruct S1 as (S1 & S2 & S3).
  destruct (run_inv ops _ _ I0 L0 S1) as (t1 & E1 & I & [L1 L2] & _). assert (t1 = t) by congruence. subst t1.
  fold (live ops) in I, L2. pose proof (half_lt _ L1) as Hlt.
  destruct (delete_spec t _ n I S2) as (t' & E' & I' & Hsz & _). exists t'. split; [exact E'|].
  assert (F : all_found t (live ops)).
  { intros m h Hin. apply (get_self_found t (live ops)); [exact I|lia|now apply Hall]. }
  pose proof (delete_keeps_found t _ n t' I S2 Hnext E' F) as F'. rewrite S3. intros m h Hin.
  destruct (get_spec t' _ h (Nat.eqb m) I') as (r & Er & Hr).
  { pose proof (filter_length_le (fun x : nat * Z => negb (fst x =? n)) (live ops)). lia. }
  rewrite Er. destruct r as [c|].
  - destruct Hr as (_ & Hc & _). apply Nat.eqb_eq in Hc. now subst c.
  - specialize (Hr m Hin (F' m h Hin)). rewrite Nat.eqb_refl in Hr. discriminate.
Qed.
Print Assumptions C51_end_of_run_partial.

(** The hypotheses are met by a table of 4 slots with a collision, a removal and a growth *)
Example C51_nonvacuous :
  let ops := [Add 0 1; Add 1 5; Del 0; Add 2 9; Add 3 2] in
  sensible (ops ++ [Add 4 1]) /\
  exists t, ht_run (ht_create 4 (fun _ => 0%Z) (fun _ => 0)) ops = Some t /\ ht_full t = true /\
    ht_get t 2 (Nat.eqb 3) = Some (Some 3) /\ ht_get t 5 (Nat.eqb 1) = Some (Some 1) /\
    slot (h_idx t) ((h_pos t 3 + 1) mod h_size t) = None.
Proof.
  split; [cbn; intuition discriminate|]. eexists. split; [vm_compute; reflexivity|]. repeat split.
Qed.
