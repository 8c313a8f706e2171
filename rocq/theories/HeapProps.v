(** C23, C24: the heap of a partition. *)
From Coq Require Import Permutation.
From Verif Require Import Base HeapModel HeapSpec HeapProofs.
Local Open Scope Z_scope.

Lemma sinv_safe s live : sinv (s, live) -> rows_safe s live.
Proof.
  intros (Lm & dead & Hm & Hs). cbn [fst snd] in *.
  set (hh := fun b : bool => if b then match shadow s with Some sh => sh | None => heap_allocate end else main s).
  assert (K : forall b, exists L E, hok (hh b) b L (ent b live ++ E)).
  { intros [|]; [|exists Lm, dead; exact Hm]. unfold hh. destruct (shadow s) as [sh|]; [destruct Hs as (_ & Ls & pc & Hs & _); eauto|].
    destruct Hs as (_ & _ & ->). exists [], []. split; [apply inv_init|reflexivity|constructor]. }
  assert (R : forall b a n v, In ((b, a), (n, v)) live -> forall L E, hok (hh b) b L (ent b live ++ E) ->
    c_data (h_mem (hh b) a) = DRow n v /\ In a L /\ c_free (h_mem (hh b) a) = false /\ CHUNK + n <= bsize (c_bucket (h_mem (hh b) a))).
  { intros b a n v Hin L E H. assert (He : In (a, (false, DRow n v)) (ent b live ++ E)) by (apply in_or_app; left; apply ent_in; eauto).
    pose proof (o_ent _ _ _ _ H) as O. rewrite Forall_forall in O. destruct (O _ He) as (_ & _ & O3 & O4). cbn [fst snd] in *.
    assert (Hn : In a (nonfree (hh b) L)) by (apply (hok_ptr _ _ _ _ _ H); apply in_map_iff; eexists; split; [|exact He]; reflexivity).
    apply nonfree_in in Hn as [Hn1 Hn2]. destruct O4 as [_ O4]. auto. }
  split; [|split].
  - assert (N : forall b, NoDup (map fst (ent b live))).
    { intros b. destruct (K b) as (L & E & H). apply hok_nodup in H. rewrite map_app in H. now apply nodup_l in H. }
    clear - N. induction live as [|[[b a] [n v]] live IH]; [constructor|]. cbn [map fst]. constructor.
    + specialize (N b). unfold ent in N. cbn [filter fst] in N. rewrite Bool.eqb_reflx in N. cbn [map fst snd] in N. inversion N as [|? ? N1 _]. subst.
      intros H. apply N1. apply in_map_iff in H as ([p [n' v']] & E & H). cbn in E. subst p. apply in_map_iff. exists (a, (false, DRow n' v')). split; [reflexivity|]. apply ent_in. eauto.
    + apply IH. intros b'. specialize (N b'). unfold ent in N. cbn [filter fst] in N. destruct (Bool.eqb b b'); [cbn [map] in N; now inversion N|exact N].
  - intros [b a] n v Hin. destruct (K b) as (L & E & H). destruct (R b a n v Hin L E H) as (D & Ha & F & B). unfold chunk_at. cbn [fst snd].
    change (if b then match shadow s with Some sh => sh | None => heap_allocate end else main s) with (hh b).
    destruct (nth_page _ _ _ (o_inv _ _ _ _ H) Ha) as [P1 P2]. pose proof (inv_okc _ _ _ (o_inv _ _ _ _ H) Ha) as O. unfold okc in O.
    unfold first_byte, end_byte. cbn [snd]. split; [exact D|]. split; [exact F|]. split; [exact P1|]. lia.
  - intros [b a] n v [b' a'] m w H1 H2 N. unfold apart, same_page, end_byte, first_byte. cbn [fst snd].
    destruct (Bool.bool_dec b b') as [<-|Nb]; [|left; tauto].
    destruct (K b) as (L & E & H). destruct (R b a n v H1 L E H) as (_ & Ha & _ & B1). destruct (R b a' m w H2 L E H) as (_ & Ha' & _ & B2).
    destruct (inv_disjoint _ _ _ _ (o_inv _ _ _ _ H) Ha Ha') as [X|[X|X]]; [congruence|left; tauto| |]; right; lia.
Qed.

(** C23: after any history of creating and freeing rows, with snapshots in between, each row has a
    block of memory for itself, inside of a page, with its content *)
Theorem C23_partial s live : reach start (s, live) -> rows_safe s live.
Proof. intros H. apply sinv_safe. exact (reach_inv _ _ sinv_start H). Qed.
Print Assumptions C23_partial.

(** and no operation fails or leaves the memory of the heaps (with enough fuel for the loop of End) *)
Theorem C23_total_partial s live o : reach start (s, live) -> valid (s, live) o -> step (s, live) o <> UB /\
  match o with End fuel => exists k, (k <= fuel)%nat -> exists z, step (s, live) o = Ok z | _ => exists z, step (s, live) o = Ok z end.
Proof.
  intros H V. pose proof (reach_inv _ _ sinv_start H) as I. destruct o as [size v|p| |fuel]; cbn [valid fst snd] in V.
  - destruct (step_add s live size v I V) as (z & E & _). rewrite E. split; [discriminate|eauto].
  - destruct (step_remove s live p I V) as (z & E & _). rewrite E. split; [discriminate|eauto].
  - destruct (step_begin s live I V) as (z & E & _). rewrite E. split; [discriminate|eauto].
  - destruct (step_end s live fuel I V) as [[E|(z & E & _)] (k & Hk)]; split; try congruence; exists k; intros Hf; [destruct (Hk Hf E)|eauto].
Qed.
Print Assumptions C23_total_partial.

(** FALSE of the code for larger rows: a page has 512 KiB, nothing limits the size of a row, and the
    row is written past the end of the page *)
Theorem C23_large_refuted size v : 524240 < size <= 1048552 ->
  exists s live p, step start (Add size v) = Ok (s, live) /\ In (p, (size, v)) live /\ end_byte p size > PAGE.
Proof.
  intros H. unfold step, start, heap_add. cbn [main shadow]. unfold heap_take, heap_allocate. cbn [h_bkt h_last h_pages Z.ltb Z.compare app length Nat.sub List.last set_last removelast fst snd].
  eexists _, _, _. split; [reflexivity|]. split; [now left|]. unfold end_byte, CHUNK, PAGE. cbn [fst snd]. unfold PAGE_HEADER. lia.
Qed.
Print Assumptions C23_large_refuted.
(** and a row that still fits moves the end of its page past 512 KiB: the subtraction at heap.c:217
    wraps, so the next row, of any size, is put behind the page *)
Theorem C23_next_refuted : exists s live p, (do x <- step start (Add 516072 1); step x (Add 10 2)) = Ok (s, live) /\ In (p, (10, 2)) live /\ first_byte p > PAGE.
Proof. eexists _, _, _. split; [vm_compute; reflexivity|]. split; [left; reflexivity|]. vm_compute. reflexivity. Qed.
Print Assumptions C23_next_refuted.

Lemma reach_trans x y z : reach x y -> reach y z -> reach x z.
Proof. intros H1 H2. induction H2 as [|y' o z H2 IH V E]; [exact H1|]. exact (reach_step _ _ _ _ IH V E). Qed.
Definition validb (x : hs * rows) (o : op) : bool :=
  match o with
  | Add size _ => (0 <=? size) && (size <? 516072)
  | Remove p => existsb (ptr_eqb p) (map fst (snd x))
  | Begin => match shadow (fst x) with None => true | Some _ => false end
  | End _ => match shadow (fst x) with None => false | Some _ => true end
  end.
Lemma validb_ok x o : validb x o = true -> valid x o.
Proof.
  destruct o as [size v|p| |fuel]; cbn [validb valid].
  - intros H. apply andb_prop in H as [H1 H2]. apply Z.leb_le in H1. apply Z.ltb_lt in H2. split; assumption.
  - intros H. apply existsb_exists in H as (q & Hq & E). destruct (ptr_eqb_spec p q); [congruence|discriminate].
  - destruct (shadow (fst x)); [discriminate|reflexivity].
  - destruct (shadow (fst x)); discriminate.
Qed.
Fixpoint run (l : list op) (x : hs * rows) : option (hs * rows) :=
  match l with [] => Some x | o :: r => if validb x o then match step x o with Ok y => run r y | _ => None end else None end.
Lemma run_reach l : forall x y, run l x = Some y -> reach x y.
Proof.
  induction l as [|o l IH]; intros x y H; cbn [run] in H; [inversion H; apply reach_nil|]. destruct (validb x o) eqn:V; [|discriminate]. destruct (step x o) as [z| |] eqn:E; try discriminate.
  refine (reach_trans _ _ _ _ (IH _ _ H)). exact (reach_step _ _ _ _ (reach_nil _) (validb_ok _ _ V) E).
Qed.
Definition runs (l : list op) : hs * rows := match run l start with Some x => x | None => start end.
Lemma runs_reach l : (if run l start then true else false) = true -> reach start (runs l).
Proof. intros H. unfold runs. destruct (run l start) as [x|] eqn:E; [exact (run_reach _ _ _ E)|discriminate]. Qed.
(** a reachable state with rows in both heaps, a delayed free and a reused block *)
Definition history : list op :=
  [Add 100 1; Add 5 2; Remove (false, (0%nat, 24)); Add 100 3; Add 30 4; Begin; Add 100 5; Remove (false, (0%nat, 24)); Add 7 6].
Example C23_nonvacuous : reach start (runs history) /\ snd (runs history) = [((true, (0%nat, 200)), (7, 6)); ((true, (0%nat, 24)), (100, 5)); ((false, (0%nat, 184)), (30, 4)); ((false, (0%nat, 152)), (5, 2))].
Proof. split; [apply runs_reach|]; vm_compute; reflexivity. Qed.
Example C23_nonvacuous_end : let x := runs (history ++ [End 10; Add 100 7]) in reach start x /\
  snd x = [((false, (0%nat, 24)), (100, 7)); ((false, (0%nat, 376)), (7, 6)); ((false, (0%nat, 248)), (100, 5)); ((false, (0%nat, 184)), (30, 4)); ((false, (0%nat, 152)), (5, 2))].
Proof. split; [apply runs_reach|]; vm_compute; reflexivity. Qed.

(** C24: when no snapshot is open, a scan of the heap returns each row once and nothing else; in
    particular after a snapshot that rows were created, changed and removed under *)
Theorem C24_scan s live : reach start (s, live) -> shadow s = None ->
  exists k l, (forall fuel, (k <= fuel)%nat -> iterate fuel (main s) = Some l) /\ Permutation l (map (fun e => snd (fst e)) live) /\ Forall (fun e => fst (fst e) = false) live.
Proof.
  intros H E. destruct (reach_inv _ _ sinv_start H) as (Lm & dead & Hm & Hs). cbn [fst snd] in *. rewrite E in Hs. destruct Hs as (_ & -> & Et). rewrite app_nil_r in Hm.
  exists (length Lm), (nonfree (main s) Lm). split; [intros fuel Hf; apply iterate_ok; [exact (o_inv _ _ _ _ Hm)|exact Hf]|].
  assert (A : Forall (fun e : ptr * (Z * Z) => fst (fst e) = false) live).
  { apply Forall_forall. intros [[b a] [n v]] Hin. cbn [fst]. destruct b; [|reflexivity]. exfalso. assert (X : In (a, (false, DRow n v)) (ent true live)) by (apply ent_in; eauto). rewrite Et in X. destruct X. }
  split; [|exact A]. rewrite (o_perm _ _ _ _ Hm). unfold ent. rewrite map_map. cbn [fst]. rewrite filter_all; [reflexivity|]. intros [[b a] r] He. rewrite Forall_forall in A. specialize (A _ He). cbn [fst] in *. subst b. reflexivity.
Qed.
Print Assumptions C24_scan.

(** while a snapshot is open the pages of the heap do not change, but its counters do *)
Lemma during_main x y : sinv x -> shadow (fst x) <> None -> during x y ->
  sinv y /\ shadow (fst y) <> None /\ h_mem (main (fst y)) = h_mem (main (fst x)) /\ h_pages (main (fst y)) = h_pages (main (fst x)) /\ h_last (main (fst y)) = h_last (main (fst x)) /\ h_bkt (main (fst y)) = h_bkt (main (fst x)).
Proof.
  intros I Es H. induction H as [|[s live] o z H (Iy & Sy & M1 & M2 & M3 & M4) V N1 N2 E]; [auto 8|]. pose proof (step_inv _ _ _ Iy V E) as Iz. split; [exact Iz|].
  destruct Iy as (Lm & dead & Hm & Hs). cbn [fst snd] in *. destruct (shadow s) as [sh|] eqn:Eq; [|congruence]. destruct Hs as (Sf & Ls & pc & Hs & _).
  assert (X : shadow (fst z) <> None /\ h_mem (main (fst z)) = h_mem (main s) /\ h_pages (main (fst z)) = h_pages (main s) /\ h_last (main (fst z)) = h_last (main s) /\ h_bkt (main (fst z)) = h_bkt (main s)).
  { destruct o as [size v|p| |fuel]; [| |congruence|destruct (N2 fuel eq_refl)]; cbn [step] in E.
    - unfold heap_add in E. rewrite Eq in E. destruct (heap_take sh size (DRow size v) true false) as [h' a]. inversion E. subst z. cbn. repeat split; congruence.
    - cbn [valid fst snd] in V. apply in_map_iff in V as ([[b a] [n v]] & <- & V). cbn [fst] in E. unfold heap_remove in E. rewrite Eq in E. cbn [snd] in E. destruct b.
      + assert (O1 : c_shadow (h_mem sh a) = true). { pose proof (o_ent _ _ _ _ Hs) as O. rewrite Forall_forall in O. destruct (O (a, (false, DRow n v))) as (O1 & _); [apply in_or_app; left; apply ent_in; eauto|exact O1]. }
        cbn [bind] in E. rewrite O1 in E. inversion E. subst z. cbn. repeat split; congruence.
      + assert (O1 : c_shadow (h_mem (main s) a) = false). { pose proof (o_ent _ _ _ _ Hm) as O. rewrite Forall_forall in O. destruct (O (a, (false, DRow n v))) as (O1 & _); [apply in_or_app; left; apply ent_in; eauto|exact O1]. }
        cbn [bind] in E. rewrite O1, Sf in E. destruct (heap_take sh 8 (DPtr a) true true) as [h' c]. inversion E. subst z. cbn. repeat split; congruence. }
  destruct X as (X1 & X2 & X3 & X4 & X5). repeat split; congruence.
Qed.
Lemma hinv_image h h' L : hinv h L -> h_pages h' = h_pages h -> h_last h' = h_last h -> h_bkt h' = h_bkt h -> (forall a, In a L -> h_mem h' a = h_mem h a) -> hinv h' L.
Proof.
  intros I P La B M. split.
  - refine (walk_ext (h_mem h) _ (h_pages h) _ L _ _ _ _ (i_walk _ _ I)); [intros a Ha; now rewrite M|intros a Ha; now rewrite M|intros i _; rewrite P; lia].
  - rewrite P. exact (i_page _ _ I).
  - pose proof (i_end _ _ I) as E. destruct L as [|x L]; [rewrite La, P; exact E|]. cbv zeta in *. rewrite La, P, (M (List.last (x :: L) (0%nat, 0))) by (apply last_in; discriminate). unfold last_size in *. rewrite P. exact E.
  - intros b. rewrite B. destruct (i_free _ _ I b) as (fl & F1 & F2 & F3 & F4). exists fl. split; [|split; [exact F2|split; [exact F3|]]].
    + apply (chain_ext (h_mem h)); [|exact F1]. intros a Ha. rewrite M; [reflexivity|]. now apply F4 in Ha as (Ha & _).
    + intros a. rewrite F4. split; intros (A1 & A2); (split; [exact A1|]); rewrite M in *; assumption.
Qed.

(** the file of a snapshot, made at any moments between Begin and End: if its header is accepted when
    it is read at the next start, the heap has exactly the rows of the moment of Begin, with their
    contents, and all of C23 holds for what happens after the start *)
Theorem C24_partial s live at_crc at_header at_page h :
  reach start (s, live) -> shadow s = None ->
  let x := (heap_snapshot s (Some heap_allocate) true, live) in
  during x at_crc -> during x at_header -> (forall i, during x (at_page i)) ->
  heap_open (heap_create (main (fst at_crc)) (main (fst at_header)) (fun i => main (fst (at_page i)))) = Some h ->
  (exists k l, (forall fuel, (k <= fuel)%nat -> iterate fuel h = Some l) /\ Permutation l (map (fun e => snd (fst e)) live)) /\
  (forall p n v, In (p, (n, v)) live -> c_data (h_mem h (snd p)) = DRow n v) /\
  (forall s' live', reach (mkhs h None false, live) (s', live') -> rows_safe s' live').
Proof.
  intros H E. cbv zeta. set (x := (heap_snapshot s (Some heap_allocate) true, live) : hs * rows). intros D1 D2 D3 Ho.
  pose proof (reach_inv _ _ sinv_start H) as I. assert (Ix : sinv x) by (destruct (step_begin s live I E) as (z & Ez & Iz); cbn [step] in Ez; inversion Ez; subst z; exact Iz).
  assert (Nx : shadow (fst x) <> None) by discriminate.
  destruct (during_main _ _ Ix Nx D2) as (_ & _ & M1 & M2 & M3 & M4).
  assert (DP : forall i, h_mem (main (fst (at_page i))) = h_mem (main s) /\ h_pages (main (fst (at_page i))) = h_pages (main s) /\ h_last (main (fst (at_page i))) = h_last (main s)).
  { intros i. destruct (during_main _ _ Ix Nx (D3 i)) as (_ & _ & X1 & X2 & X3 & _). auto. }
  change (main (fst x)) with (main s) in *. clear D1 D2 D3.
  destruct I as (Lm & dead & Hm & Hs). cbn [fst snd] in *. rewrite E in Hs. destruct Hs as (_ & -> & Et). rewrite app_nil_r in Hm.
  unfold heap_open, heap_create in Ho. cbn [f_crc f_used f_pages f_last f_bkt fst snd] in Ho.
  match type of Ho with (if ?c then _ else _) = _ => destruct c; [|discriminate] end. match type of Ho with Some ?t = Some _ => assert (Hh : t = h) by congruence end. clear Ho.
  assert (Pg : h_pages h = h_pages (main s)).
  { subst h. cbn [h_pages]. rewrite map_map. unfold page_image. cbn [fst]. rewrite M2. apply (nth_ext _ _ 0 0).
    - now rewrite map_length, seq_length.
    - intros i Hi. rewrite map_length, seq_length in Hi. rewrite (nth_indep _ 0 (nth 0 (h_pages (main (fst (at_page 0%nat)))) 0)) by (rewrite map_length, seq_length; exact Hi).
      rewrite (map_nth (fun i => nth i (h_pages (main (fst (at_page i)))) 0)). rewrite seq_nth by exact Hi. cbn [Nat.add]. destruct (DP i) as (_ & -> & _). reflexivity. }
  assert (Mem : forall a, In a Lm -> h_mem h a = h_mem (main s) a).
  { intros a Ha. destruct (nth_page _ _ _ (o_inv _ _ _ _ Hm) Ha) as [Hp _]. pose proof (inv_okc _ _ _ (o_inv _ _ _ _ Hm) Ha) as O. unfold okc in O.
    subst h. cbn [h_mem]. rewrite M2. rewrite nth_error_map. rewrite (nth_error_nth' _ 0%nat) by (rewrite seq_length; exact Hp). rewrite seq_nth by exact Hp. cbn [Nat.add option_map]. unfold page_image.
    destruct (DP (fst a)) as (-> & -> & _). destruct (Z.ltb_spec (snd a) (nth (fst a) (h_pages (main s)) 0)) as [_|Hx]; [now rewrite <- surjective_pairing|].
    exfalso. pose proof (bsize_pos (c_bucket (h_mem (main s) a))). lia. }
  assert (La : h_last h = h_last (main s)) by (subst h; cbn [h_last]; apply DP).
  assert (Bk : h_bkt h = h_bkt (main s)) by (subst h; exact M4).
  assert (Hh' : hok h false Lm (ent false live)).
  { assert (NF : nonfree h Lm = nonfree (main s) Lm) by (apply filter_ext_in; intros a Ha; now rewrite Mem).
    split; [exact (hinv_image _ _ _ (o_inv _ _ _ _ Hm) Pg La Bk Mem)|rewrite NF; exact (o_perm _ _ _ _ Hm)|].
    apply Forall_forall. intros e He. pose proof (o_ent _ _ _ _ Hm) as O. rewrite Forall_forall in O. apply (entry_same (main s)); [now apply O|].
    rewrite Mem; [repeat split; auto|]. assert (X : In (fst e) (nonfree (main s) Lm)) by (apply (hok_ptr _ _ _ _ _ Hm); now apply in_map). now apply nonfree_in in X. }
  assert (A : forall e, In e live -> fst (fst e) = false).
  { intros [[b a] [n v]] Hin. cbn [fst]. destruct b; [|reflexivity]. exfalso. assert (X : In (a, (false, DRow n v)) (ent true live)) by (apply ent_in; eauto). rewrite Et in X. destruct X. }
  clear Hh Mem. split; [|split].
  - exists (length Lm), (nonfree h Lm). split; [intros fuel Hf; apply iterate_ok; [exact (o_inv _ _ _ _ Hh')|exact Hf]|].
    rewrite (o_perm _ _ _ _ Hh'). unfold ent. rewrite map_map. cbn [fst]. rewrite filter_all; [reflexivity|]. intros [[b a] r] He. specialize (A _ He). cbn [fst] in *. subst b. reflexivity.
  - intros [b a] n v Hin. pose proof (A _ Hin) as Hb. cbn [fst] in Hb. subst b. pose proof (o_ent _ _ _ _ Hh') as O. rewrite Forall_forall in O. destruct (O (a, (false, DRow n v))) as (_ & _ & O3 & _); [apply ent_in; eauto|exact O3].
  - intros s' live' R. apply sinv_safe. refine (reach_inv _ _ _ R). exists Lm, []. cbn [fst snd main shadow shadow_free]. rewrite app_nil_r. auto.
Qed.
Print Assumptions C24_partial.
Definition snap : hs * rows := runs [Add 100 1; Add 5 2; Add 30 3; Remove (false, (0%nat, 152))].
Lemma run_during l : forall x y, run l x = Some y -> Forall (fun o => match o with Add _ _ | Remove _ => True | _ => False end) l -> during x y.
Proof.
  induction l as [|o l IH] using rev_ind; intros x y H F.
  - cbn in H. inversion H. apply during_nil.
  - assert (X : exists z, run l x = Some z /\ run [o] z = Some y).
    { clear IH F. revert x H. induction l as [|o' l IHl]; intros x H; [exists x; auto|]. cbn [app run] in *. destruct (validb x o'); [|discriminate]. destruct (step x o'); try discriminate. now apply IHl. }
    destruct X as (z & X1 & X2). apply Forall_app in F as [F1 F2]. inversion F2 as [|? ? F3 _]. subst. cbn [run] in X2. destruct (validb z o) eqn:V; [|discriminate]. destruct (step z o) eqn:Es; try discriminate. inversion X2. subst y.
    refine (during_step _ _ o _ (IH _ _ X1 F1) (validb_ok _ _ V) _ _ Es); [intros ->; exact F3|intros fuel ->; exact F3].
Qed.
(** a snapshot under which rows are added and removed, with a correct file *)
Example C24_nonvacuous : let x := (heap_snapshot (fst snap) (Some heap_allocate) true, snd snap) in
  reach start snap /\ shadow (fst snap) = None /\ snd snap <> [] /\
  exists at_page h, (forall i, during x (at_page i)) /\ snd (at_page 0%nat) <> snd x /\
  heap_open (heap_create (main (fst x)) (main (fst x)) (fun i => main (fst (at_page i)))) = Some h.
Proof.
  cbv zeta. split; [apply runs_reach; vm_compute; reflexivity|]. split; [vm_compute; reflexivity|]. split; [vm_compute; discriminate|].
  set (l := [Add 60 9; Remove (false, (0%nat, 24))]).
  destruct (run l (heap_snapshot (fst snap) (Some heap_allocate) true, snd snap)) as [y|] eqn:E; [|exfalso; vm_compute in E; discriminate].
  exists (fun _ => y). eexists. split; [intros _; apply (run_during l); [exact E|repeat constructor]|]. split.
  - intros X. assert (Y : match run l (heap_snapshot (fst snap) (Some heap_allocate) true, snd snap) with Some y => snd y | None => [] end = snd y) by (rewrite E; reflexivity).
    rewrite X in Y. vm_compute in Y. discriminate.
  - unfold heap_open, heap_create. cbn [f_crc f_used fst snd]. rewrite !Z.eqb_refl. reflexivity.
Qed.
(** FALSE of the code: the counters of the header change while the snapshot is open (heap.c:258-259
    counts the chunks of the shadow heap in the header of the main heap), and nothing stops the
    partition between the checksum and the write of the header: a row created there makes a file that
    is refused at the next start *)
Theorem C24_header_refuted : let x := (heap_snapshot (fst snap) (Some heap_allocate) true, snd snap) in
  reach start snap /\ shadow (fst snap) = None /\
  exists at_header, during x at_header /\ forall at_page, heap_open (heap_create (main (fst x)) (main (fst at_header)) at_page) = None.
Proof.
  cbv zeta. split; [apply runs_reach; vm_compute; reflexivity|]. split; [vm_compute; reflexivity|].
  destruct (run [Add 60 9] (heap_snapshot (fst snap) (Some heap_allocate) true, snd snap)) as [y|] eqn:E; [|exfalso; vm_compute in E; discriminate].
  exists y. split; [apply (run_during [Add 60 9]); [exact E|repeat constructor]|]. intros at_page. unfold heap_open, heap_create. cbn [f_crc f_used fst snd].
  assert (X : h_used (main (fst y)) = h_used (main (fst snap)) + 1).
  { unfold run in E. cbn [validb] in E. change ((0 <=? 60) && (60 <? 516072)) with true in E. cbn [step] in E. unfold heap_add in E. cbn [heap_snapshot shadow main] in E.
    destruct (heap_take heap_allocate 60 (DRow 60 9) true false) as [h' a]. cbn beta iota in E. inversion E. reflexivity. }
  rewrite X. cbn [heap_snapshot main]. replace (h_used (main (fst snap)) =? h_used (main (fst snap)) + 1) with false; [reflexivity|]. symmetry. apply Z.eqb_neq. lia.
Qed.
Print Assumptions C24_header_refuted.
