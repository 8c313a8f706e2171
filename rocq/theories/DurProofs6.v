(** C71: the restart. *)
From Verif Require Import Base DurModel DurSpec DurProofs DurProofs2 DurProofs3 DurProofs4 DurProofs5.
Local Open Scope nat_scope.

Lemma recover_loop L d0 low : wf L -> low <= S (length L) -> d_wal d0 = filter (fun r => low <=? fst r) (recs L) -> d_clsn d0 <= length L ->
  (forall t n e p, find_table (K L (length L)) t = Some (n, e) -> p < n -> d_file d0 t p <> None) -> files_whole d0 ->
  forall suf pre d m, L = pre ++ suf -> rinv L d0 low (Nat.max (length pre) (pred low)) d m ->
  exists d' m', recover_wal (filter (fun r => low <=? fst r) (combine (seq (S (length pre)) (length suf)) suf)) (d, m) = Some (d', m') /\
    rinv L d0 low (Nat.max (length L) (pred low)) d' m'.
Proof.
  intros W Hlow Hwal Hcl There Whole. induction suf as [|s suf IH]; intros pre d m EL I.
  - exists d, m. split; [reflexivity|]. rewrite app_nil_r in EL. rewrite EL at 2. exact I.
  - assert (nth_error L (length pre) = Some s) as E by (rewrite EL, nth_error_app2, Nat.sub_diag by lia; reflexivity).
    assert (L = (pre ++ [s]) ++ suf) as EL' by (now rewrite <- app_assoc).
    assert (length (pre ++ [s]) = S (length pre)) as Elen by (rewrite app_length; cbn; lia).
    pose proof (IH (pre ++ [s])) as IH'. rewrite Elen in IH'. cbn [length seq combine filter fst].
    destruct (low <=? S (length pre)) eqn:El.
    + apply Nat.leb_le in El. rewrite Nat.max_l in I by lia. rewrite Nat.max_l in IH' by lia. cbn [recover_wal]. destruct (is_ddl s) eqn:Ed.
      * assert ((match s with Dml cs => match recover_cmds (S (length pre)) (snd (d, m)) cs with Some m0 => Some (fst (d, m), m0) | None => None end | _ => recover_ddl (S (length pre)) (d, m) s end)
                = recover_ddl (S (length pre)) (d, m) s) as -> by (destruct s; [discriminate|reflexivity..]).
        destruct (Nat.lt_ge_cases (length pre) (d_clsn d0)) as [X|X].
        -- pose proof I as ((Dc & _) & _). assert (recover_ddl (S (length pre)) (d, m) s = Some (d, m)) as ->.
           { unfold recover_ddl. rewrite Dc. now rewrite (proj2 (Nat.leb_le _ _) X). }
           apply IH'; [exact EL'|]. eapply ddl_skip; eauto.
        -- destruct (ddl_next L d0 low W Hlow Hwal Hcl There Whole _ d m s El I E Ed X) as (d' & m' & H & I'). rewrite H. now apply IH'.
      * destruct s as [cs| | | |]; try discriminate Ed. cbn [snd fst]. edestruct (dml_next L d0 low) as (m' & H & I'); [eassumption..|]. rewrite H. now apply IH'.
    + apply Nat.leb_gt in El. apply IH'; [exact EL'|]. rewrite Nat.max_r in I |- * by lia. exact I.
Qed.
(** the server after a restart shows all statements *)
Lemma restart_ok L d0 : dinv L d0 -> crash_ok d0 -> exists d m, restart d0 = Some (d, m) /\ dinv L d /\ minv L L d m /\ m_lsn m = length L.
Proof.
  intros (W & (low & Hlow & Hwal & R) & Hcl & Hcat & FG & There) [Whole NoDrop].
  destruct (load_rinv L d0 low W Hlow Hwal R Hcl Hcat FG There NoDrop) as (m0 & E0 & I0).
  destruct (recover_loop L d0 low W Hlow Hwal Hcl There Whole L [] d0 m0 eq_refl I0) as (d & m & E & I).
  exists d, m. split; [unfold restart; rewrite E0, Hwal; exact E|].
  rewrite Nat.max_l in I by lia. destruct I as ((D1a & D1b & D1c) & D2 & D3 & D4 & D5 & D6 & (D7 & D8 & D9) & D10 & D11 & D12).
  rewrite Nat.max_l in D5, D6, D8, D9 by exact Hcl.
  assert (retain L d low) as R'.
  { split.
    - intros t n e p h r i s Ht Hp Hf. rewrite (D3 _ _ _ Ht) in Hf. eapply (proj1 R); eauto.
    - rewrite D1a. apply R. }
  split; [|split].
  - split; [exact W|]. split; [exists low; split; [exact Hlow|]; split; [congruence|exact R']|]. split; [lia|]. split; [congruence|]. split; [exact D2|].
    intros t n e p Ht Hp. rewrite (D3 _ _ _ Ht). eapply There; eauto.
  - split; [exact D5|]. split; [|split; [lia|split; [exact D8|]]].
    + intros t n e p Ht Hp. destruct (D6 _ _ _ _ Ht Hp) as (y & Ey & (P1 & P2 & P3 & P4 & P5 & P6) & Hy). exists y. split; [exact Ey|].
      rewrite Nat.max_l in P1, P5 by lia. split; [exact P1|]. split; [exact P2|]. split; [exact P3|]. split; [exact P4|]. split; [|intros _; exact P6].
      intros i s Hs T. apply (P5 i s); [apply nth_error_Some; congruence|exact Hs|exact T].
    + intros i s Hs Hd. apply (D9 i s); [apply nth_error_Some; congruence|exact Hs|exact Hd].
  - destruct (Nat.eq_dec (length L) 0) as [Z|NZ]; [lia|].
    destruct (Nat.lt_ge_cases (length L) low) as [X|X]; [|specialize (D12 X); lia].
    destruct (nth_error L (pred (length L))) as [s|] eqn:Es; [|apply nth_error_None in Es; lia].
    destruct (is_ddl s) eqn:Ed.
    + destruct (Nat.lt_ge_cases (pred (length L)) (d_clsn d0)) as [Y|Y]; [lia|]. pose proof (proj2 R _ _ Es Ed Y). lia.
    + destruct s as [cs| | | |]; try discriminate. pose proof (W _ _ Es) as [Ne F]. destruct cs as [|[[t p] os] cs]; [easy|].
      assert (touches (Dml ((t, p, os) :: cs)) t p) as T by (exists os; now left).
      destruct (touch_there _ _ _ _ _ W Es T) as (n & e & Ht & Hp).
      assert (K L (length L) = K L (pred (length L))) as EK.
      { apply K_same; [lia|lia|]. intros i q Hi Hq. assert (i = pred (length L)) as -> by lia. rewrite Es in Hq. now injection Hq as <-. }
      rewrite <- EK in Ht. destruct (D6 _ _ _ _ Ht Hp) as (y & Ey & (_ & _ & _ & _ & _ & P6) & Hy).
      destruct (Nat.lt_ge_cases (pred (length L)) (hdr y)) as [Y|Y]; [lia|].
      pose proof (proj1 R' _ _ _ _ _ _ _ _ Ht Hp P6 Es T Y). lia.
Qed.

(** ** All steps *)
Lemma any_step x e x' : inv x -> careful x e -> step x e = Some x' -> inv x'.
Proof.
  intros I (C1 & C2 & C3) H. destruct e as [s| |t p| | |low|].
  - eapply begin_inv; eauto.
  - eapply step_inv; eauto.
  - eapply refresh_inv; eauto.
  - eapply catalog_inv; eauto.
  - eapply gcstart_inv; eauto.
  - eapply gcend_inv; eauto.
  - destruct I as (D & _). destruct (restart_ok _ _ D C3) as (d & m & E & D' & M & Hl). cbn in H. rewrite E in H. injection H as <-.
    split; [exact D'|]. split; [exact Hl|]. split; [intros min l X; discriminate X|]. left. split; [reflexivity|exact M].
Qed.
Lemma run_inv es : forall x x', inv x -> always careful x es -> run x es = Some x' -> inv x'.
Proof.
  induction es as [|e es IH]; intros x x' I A H; cbn in *; [now injection H as <-|]. destruct A as [A1 A2].
  destruct (step x e) as [x1|] eqn:E; [|discriminate]. eapply IH; [eapply any_step; eauto|exact A2|exact H].
Qed.
Lemma init_inv : inv server_init.
Proof.
  assert (forall low, low <= 1 -> retain [] (x_disk server_init) low) as R.
  { intros low H. split; [intros; discriminate|]. intros i s Hi. destruct i; discriminate. }
  split; [|split; [reflexivity|split]].
  - split; [intros [|j] s H; discriminate|]. split; [exists 1; split; [cbn; lia|split; [reflexivity|now apply R]]|].
    split; [cbn; lia|]. split; [reflexivity|]. split; [intros t p h r H; discriminate|]. intros t n e p H. discriminate.
  - intros min l H. discriminate H.
  - left. split; [reflexivity|]. split; [reflexivity|]. split; [intros t n e p H; discriminate|]. split; [cbn; lia|]. split; [cbn; lia|]. intros [|i] s H; discriminate.
Qed.
Lemma minv_shows x : minv (g_log x) (g_log x) (x_disk x) (x_mem x) -> shows_log x.
Proof.
  intros (M1 & M2 & _). unfold shows_log, shows. rewrite <- K_full, <- C_full. split; [exact M1|].
  intros t n d p Ht Hp. destruct (M2 _ _ _ _ Ht Hp) as (y & Ey & P1 & _). eauto.
Qed.
