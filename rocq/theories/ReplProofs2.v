(** Proofs for C52: the changes of the log files, the invariant. *)
From Verif Require Import Base ReplModel ReplSpec ReplProofs.
Local Open Scope nat_scope.

Ltac ltbf := symmetry; apply Nat.ltb_ge; lia.
Ltac ltbt := symmetry; apply Nat.ltb_lt; lia.
Ltac eqf := symmetry; apply Nat.eqb_neq; lia.

(** ** a record is added *)
Lemma append_cons f g r x : file_append (f :: g :: r) x = f :: file_append (g :: r) x.
Proof. reflexivity. Qed.
Lemma append_head g r x : exists h t, file_append (g :: r) x = h :: t /\ wf_id h = wf_id g.
Proof. destruct r; eexists; eexists; split; reflexivity. Qed.
Lemma append_files b fs log a : files_at b fs log -> files_at b (file_append fs (S (length log), a)) (log ++ [a]).
Proof.
  revert b. induction fs as [|f fs IH]; intros b H; [contradiction|]. destruct H as [E H]. destruct fs as [|g r].
  - destruct H as [L R]. cbn [file_append files_at wf_id wf_recs]. split; [exact E|]. rewrite app_length. cbn [length]. split; [lia|].
    replace (length log + 1 - b) with (S (length log - b)) by lia. rewrite slice_snoc by (rewrite app_length; cbn; lia). rewrite slice_grow by lia. rewrite R.
    replace (b + (length log - b)) with (length log) by lia. rewrite app_nth2 by lia. rewrite Nat.sub_diag. reflexivity.
  - rewrite append_cons. destruct H as (k & K & L & R & H). specialize (IH _ H). destruct (append_head g r (S (length log), a)) as (h & t & Eh & _).
    cbn [files_at]. split; [exact E|]. rewrite Eh in *. exists k. split; [exact K|]. rewrite app_length. split; [lia|]. split; [rewrite slice_grow by exact L; exact R|exact IH].
Qed.
Lemma append_next fs x v : match file_next fs v with None => file_next (file_append fs x) v = None | Some f => exists f', file_next (file_append fs x) v = Some f' /\ wf_id f' = wf_id f end.
Proof.
  induction fs as [|f fs IH]; [reflexivity|]. destruct fs as [|g r].
  - cbn [file_next file_append wf_id]. destruct (v <? wf_id f); [eexists; split; reflexivity|reflexivity].
  - rewrite append_cons. cbn [file_next]. destruct (v <? wf_id f); [exists f; split; reflexivity|]. exact IH.
Qed.
Lemma append_find_none fs x v : find (fun f => wf_id f =? v) fs = None -> find (fun f => wf_id f =? v) (file_append fs x) = None.
Proof.
  induction fs as [|f fs IH]; [reflexivity|]. destruct fs as [|g r].
  - cbn [find file_append wf_id]. destruct (wf_id f =? v); [discriminate|reflexivity].
  - rewrite append_cons. cbn [find]. destruct (wf_id f =? v); [discriminate|]. exact IH.
Qed.
Lemma next_above fs v f : In f fs -> v < wf_id f -> exists g, file_next fs v = Some g.
Proof.
  induction fs as [|h fs IH]; [contradiction|]. intros I L. cbn [file_next]. destruct (Nat.ltb_spec v (wf_id h)); [exists h; reflexivity|]. destruct I as [->|I]; [lia|apply IH; assumption].
Qed.
Lemma append_find b fs log x v f : files_at b fs log -> find (fun f => wf_id f =? v) fs = Some f ->
  find (fun f => wf_id f =? v) (file_append fs x) = Some match file_next fs v with None => mkwf (wf_id f) (wf_recs f ++ [x]) | Some _ => f end.
Proof.
  revert b. induction fs as [|g fs IH]; intros b H F; [discriminate|]. destruct H as [E H]. destruct fs as [|h r].
  - cbn [find file_append file_next wf_id] in *. destruct (Nat.eqb_spec (wf_id g) v) as [<-|]; [|discriminate]. injection F as ->. rewrite Nat.ltb_irrefl. reflexivity.
  - rewrite append_cons. destruct H as (k & K & L & R & H). cbn [find] in *. destruct (Nat.eqb_spec (wf_id g) v) as [<-|Ne].
    + injection F as ->. destruct (next_above (f :: h :: r) (wf_id f) h) as (q & ->); [right; left; reflexivity| |reflexivity].
      destruct H as [E2 _]. lia.
    + rewrite (IH _ H F). cbn [file_next]. destruct (Nat.ltb_spec v (wf_id g)); [|reflexivity].
      exfalso. change (find (fun f => wf_id f =? v) (h :: r) = Some f) in F. apply find_some in F. destruct F as [I Ev]. apply Nat.eqb_eq in Ev. pose proof (files_ids _ _ _ _ H I). lia.
Qed.
Lemma cursor_append b0 fs log c m a : files_at b0 fs log -> cursor_at fs log c m -> cursor_at (file_append fs (S (length log), a)) (log ++ [a]) c m.
Proof.
  intros H (b & k & E & M & K & L & R & P). unfold rc_refresh in R. rewrite E in R. destruct P as [(N & T & f & F)|(f & N & I)].
  - pose proof (append_find b0 fs log (S (length log), a) (S b) f H F) as F'. rewrite N in F'. rewrite F in R.
    exists b, (S k). split; [exact E|]. split; [exact M|]. split; [lia|]. rewrite app_length. cbn [length]. split; [lia|]. split.
    + unfold rc_refresh. rewrite E, F'. cbn [wf_recs]. rewrite R, slice_snoc by (rewrite app_length; cbn; lia). rewrite slice_grow by lia. rewrite T, app_nth2 by lia. rewrite Nat.sub_diag. reflexivity.
    + left. pose proof (append_next fs (S (length log), a) (S b)) as Q. rewrite N in Q. split; [exact Q|]. rewrite app_length. cbn [length]. split; [lia|]. eexists. exact F'.
  - exists b, k. split; [exact E|]. split; [exact M|]. split; [exact K|]. rewrite app_length. split; [lia|]. split.
    + unfold rc_refresh. rewrite E, slice_grow by exact L. destruct (find (fun f => wf_id f =? S b) fs) as [g|] eqn:F.
      * rewrite (append_find b0 fs log _ (S b) g H F), N. exact R.
      * rewrite (append_find_none _ _ _ F). exact R.
    + right. pose proof (append_next fs (S (length log), a) (S b)) as Q. rewrite N in Q. destruct Q as (f' & Q & Ei). exists f'. split; [exact Q|lia].
Qed.

(** ** a new file *)
Lemma next_app fs g v : file_next (fs ++ [g]) v = match file_next fs v with Some f => Some f | None => if v <? wf_id g then Some g else None end.
Proof. induction fs as [|f fs IH]; [reflexivity|]. cbn [app file_next]. destruct (v <? wf_id f); [reflexivity|exact IH]. Qed.
Lemma find_app' (p : wfile -> bool) fs g : find p (fs ++ [g]) = match find p fs with Some f => Some f | None => if p g then Some g else None end.
Proof. induction fs as [|f fs IH]; [reflexivity|]. cbn [app find]. destruct (p f); [reflexivity|exact IH]. Qed.
Definition last_full (fs : list wfile) : Prop := exists l f, fs = l ++ [f] /\ wf_recs f <> [].
Lemma last_full_cons f g r : last_full (f :: g :: r) -> last_full (g :: r).
Proof. intros ([|x l] & h & E & N); [discriminate|]. injection E as -> E. exists l, h. auto. Qed.
Lemma rotate_files b fs log : files_at b fs log -> last_full fs -> files_at b (fs ++ [mkwf (S (length log)) []]) log.
Proof.
  revert b. induction fs as [|f fs IH]; intros b H Lf; [contradiction|]. destruct H as [E H]. destruct fs as [|g r].
  - destruct H as [L R]. destruct Lf as (l & h & El & N). destruct l as [|? [|]]; try discriminate. injection El as <-. cbn [app files_at wf_id wf_recs]. split; [exact E|].
    assert (0 < length log - b). { destruct (length log - b) eqn:Z; [exfalso; apply N; rewrite R; reflexivity|lia]. }
    exists (length log - b). split; [assumption|]. split; [lia|]. split; [exact R|]. split; [lia|]. split; [lia|]. replace (length log - (b + (length log - b))) with 0 by lia. reflexivity.
  - destruct H as (k & K & L & R & H). change ((f :: g :: r) ++ [mkwf (S (length log)) []]) with (f :: (g :: r) ++ [mkwf (S (length log)) []]). cbn [files_at app]. split; [exact E|].
    exists k. split; [exact K|]. split; [exact L|]. split; [exact R|]. apply (IH _ H (last_full_cons _ _ _ Lf)).
Qed.
Lemma full_ids b fs log f : files_at b fs log -> last_full fs -> In f fs -> wf_id f <= length log.
Proof.
  revert b. induction fs as [|g fs IH]; intros b H Lf I; [contradiction|]. destruct H as [E H]. destruct fs as [|h r].
  - destruct I as [->|[]]. destruct H as [L R]. destruct Lf as (l & q & El & N). destruct l as [|? [|]]; try discriminate. injection El as <-.
    destruct (length log - b) eqn:Z; [exfalso; apply N; rewrite R; reflexivity|lia].
  - destruct H as (k & K & L & R & H). destruct I as [->|I]; [lia|]. apply (IH _ H (last_full_cons _ _ _ Lf) I).
Qed.
Lemma cursor_rotate b0 fs log c m : files_at b0 fs log -> last_full fs -> cursor_at fs log c m -> cursor_at (fs ++ [mkwf (S (length log)) []]) log c m.
Proof.
  intros H Lf (b & k & E & M & K & L & R & P). exists b, k. split; [exact E|]. split; [exact M|]. split; [exact K|]. split; [exact L|].
  assert (b < length log) as Lb.
  { destruct P as [(N & T & f & F)|(f & N & I)].
    - apply find_some in F. destruct F as [In' Ev]. apply Nat.eqb_eq in Ev. pose proof (full_ids _ _ _ _ H Lf In'). lia.
    - destruct (next_in _ _ _ N). lia. }
  split.
  - unfold rc_refresh in *. rewrite find_app'. cbn [wf_id]. destruct (find _ fs); [exact R|]. rewrite E. replace (S (length log) =? S b) with false by eqf. exact R.
  - right. rewrite next_app. cbn [wf_id]. destruct P as [(N & T & f & F)|(f & N & I)].
    + rewrite N. replace (S b <? S (length log)) with true by ltbt. eexists. split; [reflexivity|]. cbn. lia.
    + rewrite N. exists f. auto.
Qed.

(** ** files are removed *)
Lemma gc_eq f g r id : gc_files (f :: g :: r) id = if wf_id g <=? id then gc_files (g :: r) id else f :: g :: r.
Proof. reflexivity. Qed.
Lemma gc_files_at b fs log id : files_at b fs log -> exists b', b <= b' /\ files_at b' (gc_files fs id) log.
Proof.
  revert b. induction fs as [|f fs IH]; intros b H; [contradiction|]. destruct fs as [|g r]; [exists b; split; [lia|exact H]|]. rewrite gc_eq. destruct (wf_id g <=? id); [|exists b; split; [lia|exact H]].
  destruct H as [E (k & K & L & R & H)]. destruct (IH _ H) as (b' & A & B). exists b'. split; [lia|exact B].
Qed.
Lemma gc_next b fs log id v f : files_at b fs log -> file_next fs v = Some f -> id < wf_id f -> file_next (gc_files fs id) v = Some f.
Proof.
  revert b. induction fs as [|g fs IH]; intros b H N L; [discriminate|]. destruct fs as [|h r]; [exact N|]. rewrite gc_eq. destruct (Nat.leb_spec (wf_id h) id); [|exact N].
  destruct H as [E (k & K & L' & R & H)]. pose proof H as [E2 _]. cbn [file_next] in N. destruct (v <? wf_id g); [injection N as ->; lia|]. apply (IH _ H); assumption.
Qed.
Lemma gc_next_none fs id v : file_next fs v = None -> file_next (gc_files fs id) v = None.
Proof.
  induction fs as [|g fs IH]; intros N; [exact N|]. destruct fs as [|h r]; [exact N|]. rewrite gc_eq. destruct (wf_id h <=? id); [|exact N]. apply IH. cbn [file_next] in *. destruct (v <? wf_id g); [discriminate|exact N].
Qed.
Lemma gc_find b fs log id v f : files_at b fs log -> find (fun f => wf_id f =? v) (gc_files fs id) = Some f -> find (fun f => wf_id f =? v) fs = Some f.
Proof.
  revert b. induction fs as [|g fs IH]; intros b H N; [exact N|]. destruct fs as [|h r]; [exact N|]. rewrite gc_eq in N. destruct (wf_id h <=? id); [|exact N].
  destruct H as [E (k & K & L & R & H)]. specialize (IH _ H N). cbn [find]. destruct (Nat.eqb_spec (wf_id g) v) as [<-|Ne]; [|exact IH].
  exfalso. apply find_some in IH. destruct IH as [I Ev]. apply Nat.eqb_eq in Ev. pose proof (files_ids _ _ _ _ H I). lia.
Qed.
Lemma gc_find_last b fs log id v f : files_at b fs log -> file_next fs v = None -> find (fun f => wf_id f =? v) fs = Some f -> find (fun f => wf_id f =? v) (gc_files fs id) = Some f.
Proof.
  revert b. induction fs as [|g fs IH]; intros b H N F; [exact F|]. destruct fs as [|h r]; [exact F|]. rewrite gc_eq. destruct (wf_id h <=? id); [|exact F].
  destruct H as [E (k & K & L & R & H)]. pose proof H as [E2 _]. cbn [file_next find] in N, F.
  destruct (v <? wf_id g); [discriminate|]. apply (IH _ H N). cbn [find]. destruct (Nat.eqb_spec (wf_id g) v) as [Ev|Ne]; [|exact F].
  exfalso. destruct (Nat.ltb_spec v (wf_id h)); [discriminate|]. lia.
Qed.
Lemma cursor_gc b0 fs log c m id : files_at b0 fs log -> cursor_at fs log c m -> id <= m -> cursor_at (gc_files fs id) log (mkrc (rc_id c) (rc_refresh fs c) (rc_off c)) m.
Proof.
  intros H (b & k & E & M & K & L & R & P) Le. exists b, k. cbn [rc_id rc_off]. split; [exact E|]. split; [exact M|]. split; [exact K|]. split; [exact L|]. split.
  - unfold rc_refresh at 1. cbn [rc_id rc_recs]. destruct (find (fun f => wf_id f =? rc_id c) (gc_files fs id)) as [f|] eqn:F; [|exact R].
    apply (gc_find b0 fs log) in F; [|exact H]. unfold rc_refresh in R. rewrite F in R. exact R.
  - destruct P as [(N & T & f & F)|(f & N & I)].
    + left. split; [apply gc_next_none, N|]. split; [exact T|]. exists f. apply (gc_find_last b0 fs log); assumption.
    + right. exists f. split; [|exact I]. apply (gc_next b0 fs log); [exact H|exact N|lia].
Qed.

(** ** the invariant *)
Record inv (s : repl) (log : list payload) : Prop := mkinv {
  i_files : exists b, files_at b (p_files s) log;
  i_lsn : p_lsn s = length log;
  i_log : r_log s = firstn (length (r_log s)) log;
  i_stream : forall t, p_stream s = Some t -> p_slot s <= s_lsn t /\ s_lsn t <= length log /\ (forall c, s_cur t = Some c -> cursor_at (p_files s) log c (s_lsn t)) /\
    (s_wait t = false -> p_slot s = s_lsn t /\ s_lsn t <= length (r_log s));
  i_join : forall c n, n_join s = Some (c, n) -> n <= length (r_log s);
  i_net : Forall (fun q => exists k, q_recs q = slice (q_lsn q) k log /\ q_lsn q + k <= length log) (n_net s);
  i_reply : Forall (fun p => snd p <= length (r_log s)) (n_reply s);
  i_sess : r_sess s = [] \/ exists c k, r_sess s = [(c, slice (length (r_log s)) k log)] /\ length (r_log s) + k <= length log }.
Lemma firstn_len {A} (l r : list A) : r = firstn (length r) l -> length r <= length l.
Proof. intros H. rewrite H at 1. rewrite firstn_length. lia. Qed.
Lemma remove_forall {A} (P : A -> Prop) i l : Forall P l -> Forall P (remove_nth i l).
Proof.
  intros H. unfold remove_nth. apply Forall_app. rewrite Forall_forall in H. split; apply Forall_forall; intros x I; apply H.
  - rewrite <- (firstn_skipn i l). apply in_or_app. left. exact I.
  - rewrite <- (firstn_skipn (S i) l). apply in_or_app. right. exact I.
Qed.
Lemma nth_forall {A} (P : A -> Prop) i l x : Forall P l -> nth_error l i = Some x -> P x.
Proof. intros H E. rewrite Forall_forall in H. apply H, (nth_error_In l i), E. Qed.
Lemma firstn_next (l : list payload) n : n < length l -> firstn (S n) l = firstn n l ++ [nth n l []].
Proof. revert l. induction n as [|n IH]; intros [|x l] H; cbn in H; try lia; [reflexivity|]. change (firstn (S (S n)) (x :: l)) with (x :: firstn (S n) l). rewrite IH by lia. reflexivity. Qed.
Lemma firstn_app_le {A} (l x : list A) n : n <= length l -> firstn n (l ++ x) = firstn n l.
Proof. intros H. rewrite firstn_app. replace (n - length l) with 0 by lia. cbn [firstn]. apply app_nil_r. Qed.
Lemma one_sess (s : repl) log i c l : inv s log -> nth_error (r_sess s) i = Some (c, l) -> i = 0 /\ r_sess s = [(c, l)] /\ exists k, l = slice (length (r_log s)) k log /\ length (r_log s) + k <= length log.
Proof.
  intros I E. destruct (i_sess s log I) as [S|(c' & k & S & L)]; rewrite S in E; [destruct i; discriminate|]. destruct i as [|[|i]]; try discriminate. cbn in E. injection E as <- <-. split; [reflexivity|]. split; [exact S|]. exists k. auto.
Qed.
Lemma step_write s log a s' : inv s log -> rstep s (PWrite a) = Some s' -> inv s' (log ++ [a]).
Proof.
  intros [(b & F) L R S J N P Q] E. cbn [rstep] in E. injection E as <-. rewrite L. pose proof (firstn_len _ _ R) as Le.
  constructor; cbn [p_files p_lsn p_slot p_stream n_conn n_join n_net n_reply r_log r_sess].
  - exists b. apply append_files, F.
  - rewrite app_length. cbn. lia.
  - rewrite firstn_app_le by exact Le. exact R.
  - intros t Et. destruct (S t Et) as (A & B & C & D). rewrite app_length. split; [exact A|]. split; [lia|]. split; [|exact D]. intros c Ec. apply (cursor_append b); auto.
  - exact J.
  - eapply Forall_impl; [|exact N]. intros q (k & X & Y). exists k. rewrite slice_grow by exact Y. rewrite app_length. split; [exact X|lia].
  - exact P.
  - destruct Q as [Q|(c & k & Q & X)]; [left; exact Q|]. right. exists c, k. rewrite slice_grow by exact X. rewrite app_length. split; [exact Q|lia].
Qed.
Lemma rev_full fs f r : rev fs = f :: r -> wf_recs f <> [] -> last_full fs.
Proof. intros E N. exists (rev r), f. split; [|exact N]. rewrite <- (rev_involutive fs), E. reflexivity. Qed.
Lemma step_other s log e s' : inv s log -> careful s e -> rstep s e = Some s' -> match e with PWrite _ => False | _ => True end -> inv s' log.
Proof.
  intros I (One & Gc) E W. pose proof I as [(b & F) L R S J N P Q]. pose proof (firstn_len _ _ R) as Le. destruct e; try contradiction; cbn [rstep] in E.
  - (* PRotate *) destruct (rev (p_files s)) as [|f r] eqn:Er; [discriminate|]. destruct (wf_recs f) as [|x xs] eqn:Ef; [discriminate|]. injection E as <-.
    assert (Lf : last_full (p_files s)) by (apply (rev_full _ f r Er); rewrite Ef; discriminate). rewrite L.
    constructor; cbn [p_files p_lsn p_slot p_stream n_conn n_join n_net n_reply r_log r_sess]; auto.
    + exists b. apply rotate_files; assumption.
    + intros t Et. destruct (S t Et) as (A & B & C & D). split; [exact A|]. split; [exact B|]. split; [|exact D]. intros c Ec. apply (cursor_rotate b); auto.
  - (* PGc *) cbn [gc_keeps] in Gc. set (id := slots_min (attached s ++ others) min) in *. clearbody id. injection E as <-.
    constructor; cbn [p_files p_lsn p_slot p_stream n_conn n_join n_net n_reply r_log r_sess]; auto.
    + destruct (gc_files_at b _ log id F) as (b' & _ & H). exists b'. exact H.
    + intros t Et. destruct (p_stream s) as [t0|] eqn:E0; [|discriminate]. injection Et as <-. destruct (S t0 eq_refl) as (A & B & C & D). cbn [s_lsn s_wait s_cur]. split; [exact A|]. split; [exact B|]. split; [|exact D].
      intros c Ec. destruct (s_cur t0) as [c0|]; [|discriminate]. injection Ec as <-. apply (cursor_gc b); auto. specialize (Gc ltac:(discriminate)). lia.
  - (* PRestart *) injection E as <-. constructor; cbn [p_files p_lsn p_slot p_stream n_conn n_join n_net n_reply r_log r_sess]; try (exists b; exact F); try assumption; discriminate.
  - (* Join *) destruct (p_stream s); [discriminate|]. destruct (n_join s); [discriminate|]. injection E as <-.
    constructor; cbn [p_files p_lsn p_slot p_stream n_conn n_join n_net n_reply r_log r_sess]; try (exists b; exact F); try assumption; try discriminate. intros c n [= <- <-]. lia.
  - (* Connect *) destruct (n_join s) as [[c n]|] eqn:Ej; [|discriminate]. specialize (J c n eq_refl). destruct ((n =? 0) || (list_min (p_files s) <=? n)).
    + injection E as <-. constructor; cbn [p_files p_lsn p_slot p_stream n_conn n_join n_net n_reply r_log r_sess]; try (exists b; exact F); try assumption; try discriminate.
      intros t [= <-]. cbn [s_lsn s_wait s_cur]. split; [lia|]. split; [lia|]. split; [|intros _; split; [reflexivity|exact J]]. intros c' Ec. apply (open_at b); auto. lia.
    + injection E as <-. constructor; cbn [p_files p_lsn p_slot p_stream n_conn n_join n_net n_reply r_log r_sess]; try (exists b; exact F); try assumption; discriminate.
  - (* Drop *) injection E as <-. constructor; cbn [p_files p_lsn p_slot p_stream n_conn n_join n_net n_reply r_log r_sess]; try (exists b; exact F); try assumption; discriminate.
  - (* Send *) destruct (p_stream s) as [[c lsn [|] [cur|]]|] eqn:Es; try discriminate. destruct (S _ eq_refl) as (A & B & C & D). cbn [s_lsn s_wait s_cur] in *. destruct (D eq_refl) as [D1 D2].
    destruct (readahead_at b (p_files s) log k cur lsn F (C cur eq_refl)) as (cur' & Rr & C'). rewrite Rr in E. set (j := Nat.min k (length log - lsn)) in *.
    assert (lsn + j <= length log) as Lj by (subst j; lia). clearbody j. destruct j as [|j].
    { rewrite slice_0 in E. discriminate. }
    assert (El : fst (last (slice lsn (Datatypes.S j) log) (0, [])) = lsn + Datatypes.S j).
    { rewrite slice_snoc by lia. rewrite last_last. cbn [fst]. lia. }
    rewrite slice_cons in E by lia. rewrite <- slice_cons in E by lia. rewrite El in E. injection E as <-.
    constructor; cbn [p_files p_lsn p_slot p_stream n_conn n_join n_net n_reply r_log r_sess]; try (exists b; exact F); try assumption.
    + intros t [= <-]. cbn [s_lsn s_wait s_cur]. split; [lia|]. split; [lia|]. split; [|discriminate]. intros c' [= <-]. exact C'.
    + apply Forall_app. split; [exact N|]. constructor; [|constructor]. exists (Datatypes.S j). cbn [q_recs q_lsn]. rewrite D1. split; [reflexivity|exact Lj].
  - (* Deliver *) destruct (nth_error (n_net s) i) as [q|] eqn:Eq; [|discriminate]. injection E as <-. cbn [one_at_a_time] in One. pose proof (nth_forall _ _ _ _ N Eq) as (k & X & Y).
    constructor; cbn [p_files p_lsn p_slot p_stream n_conn n_join n_net n_reply r_log r_sess]; auto; [exists b; exact F|apply remove_forall, N|].
    destruct (Nat.eqb_spec (q_lsn q) (length (r_log s))) as [Em|]; [|left; exact One]. right. exists (q_conn q), k. rewrite One. cbn [app]. rewrite <- Em, <- X. split; [reflexivity|exact Y].
  - (* Apply *) destruct (nth_error (r_sess s) i) as [[c [|r l]]|] eqn:Eq; try discriminate. injection E as <-. destruct (one_sess s log i c _ I Eq) as (-> & Sx & k & Ek & Lk).
    destruct k as [|k]; [discriminate|]. rewrite slice_cons in Ek by lia. injection Ek as -> Ek. cbn [snd].
    assert (Ln : length (r_log s ++ [nth (length (r_log s)) log []]) = Datatypes.S (length (r_log s))) by (rewrite app_length; cbn; lia).
    constructor; cbn [p_files p_lsn p_slot p_stream n_conn n_join n_net n_reply r_log r_sess]; rewrite ?Ln; auto; [exists b; exact F| | | | |].
    + rewrite firstn_next by lia. rewrite <- R. reflexivity.
    + intros t Et. destruct (S t Et) as (A & B & C & D). split; [exact A|]. split; [exact B|]. split; [exact C|]. intros Ew. destruct (D Ew). split; [assumption|lia].
    + intros c' n Ej. specialize (J c' n Ej). lia.
    + eapply Forall_impl; [|exact P]. cbn. lia.
    + right. exists c, k. rewrite Sx. cbn [update_nth]. rewrite Ek. split; [reflexivity|lia].
  - (* Fail *) destruct (nth_error (r_sess s) i) as [[c l]|] eqn:Eq; [|discriminate]. injection E as <-. destruct (one_sess s log i c _ I Eq) as (-> & Sx & _).
    constructor; cbn [p_files p_lsn p_slot p_stream n_conn n_join n_net n_reply r_log r_sess]; auto; [exists b; exact F|]. left. rewrite Sx. reflexivity.
  - (* Finish *) destruct (nth_error (r_sess s) i) as [[c [|r l]]|] eqn:Eq; try discriminate. injection E as <-. destruct (one_sess s log i c _ I Eq) as (-> & Sx & _).
    constructor; cbn [p_files p_lsn p_slot p_stream n_conn n_join n_net n_reply r_log r_sess]; auto; [exists b; exact F| |left; rewrite Sx; reflexivity].
    apply Forall_app. split; [exact P|]. constructor; [cbn; lia|constructor].
  - (* Reply *) destruct (nth_error (n_reply s) i) as [[c n]|] eqn:Eq; [|discriminate]. destruct (p_stream s) as [[c' sl [|] cur]|] eqn:Es; try discriminate. destruct (c =? c'); [|discriminate].
    pose proof (nth_forall _ _ _ _ P Eq) as Pn. cbn [snd] in Pn. destruct (S _ eq_refl) as (A & B & C & D). cbn [s_lsn s_wait s_cur] in *. destruct (Nat.eqb_spec n sl) as [->|].
    + injection E as <-. constructor; cbn [p_files p_lsn p_slot p_stream n_conn n_join n_net n_reply r_log r_sess]; auto; [exists b; exact F| |apply remove_forall, P].
      intros t [= <-]. cbn [s_lsn s_wait s_cur]. split; [lia|]. split; [exact B|]. split; [exact C|]. intros _. split; [reflexivity|exact Pn].
    + injection E as <-. constructor; cbn [p_files p_lsn p_slot p_stream n_conn n_join n_net n_reply r_log r_sess]; try (exists b; exact F); try assumption; [discriminate|apply remove_forall, P].
  - (* RRestart *) injection E as <-. constructor; cbn [p_files p_lsn p_slot p_stream n_conn n_join n_net n_reply r_log r_sess]; auto; [exists b; exact F| |discriminate|discriminate].
    rewrite firstn_length. rewrite R at 1. rewrite firstn_firstn. reflexivity.
Qed.
Lemma run_inv es : forall s log s', inv s log -> always careful s es -> rrun s es = Some s' -> inv s' (log ++ commits es).
Proof.
  induction es as [|e es IH]; intros s log s' I A E; cbn [rrun] in E; [injection E as <-; cbn [commits]; rewrite app_nil_r; exact I|].
  destruct A as [Ca A]. destruct (rstep s e) as [s1|] eqn:Es; [|discriminate].
  destruct (match e with PWrite a => Some a | _ => None end) as [a|] eqn:Ew.
  - destruct e; try discriminate. injection Ew as ->. cbn [commits]. specialize (IH s1 (log ++ [a]) s' (step_write s log a s1 I Es) A E). rewrite <- app_assoc in IH. exact IH.
  - assert (commits (e :: es) = commits es) as -> by (destruct e; try discriminate; reflexivity). apply (IH s1); auto. apply (step_other s log e); auto. destruct e; try discriminate; exact Logic.I.
Qed.
Lemma init_inv log n : inv (rinit log n) log.
Proof.
  constructor; cbn; auto; try discriminate.
  - exists 0. split; [reflexivity|]. split; [lia|]. unfold slice. cbn [skipn]. rewrite Nat.sub_0_r, firstn_all. reflexivity.
  - rewrite firstn_length. destruct (Nat.le_gt_cases n (length log)); [rewrite Nat.min_l by lia; reflexivity|]. rewrite Nat.min_r by lia. rewrite firstn_all, firstn_all2 by lia. reflexivity.
Qed.
