(** Round trip of one WAL record. *)
From Verif Require Import Base CrcModel CrcProofs JsonModel JsonSpec JsonProofs WalModel WalSpec.
Local Open Scope nat_scope.

(** ** slices *)
Lemma slice_mid a b c : slice (a ++ b ++ c) (length a) (length b) = Ok b.
Proof.
  unfold slice. rewrite !app_length. replace (_ <=? _) with true by (symmetry; apply Nat.leb_le; lia).
  rewrite skipn_app, skipn_all, Nat.sub_diag. cbn [app skipn]. rewrite firstn_app, firstn_all, Nat.sub_diag. cbn. now rewrite app_nil_r.
Qed.
Lemma slice_at l a b c off n : l = a ++ b ++ c -> off = length a -> n = length b -> slice l off n = Ok b.
Proof. intros -> -> ->. apply slice_mid. Qed.
Lemma get_u_at l a v n c off : l = a ++ le_enc n v ++ c -> off = length a -> (0 <= v < 2 ^ (8 * Z.of_nat n))%Z -> get_u l off n = Ok v.
Proof.
  intros E1 E2 R. unfold get_u. rewrite (slice_at l a (le_enc n v) c off n E1 E2) by now rewrite le_enc_length.
  cbn [bind]. now rewrite le_dec_enc.
Qed.
Lemma slice_prefix a b off n x : slice a off n = Ok x -> slice (a ++ b) off n = Ok x.
Proof.
  unfold slice. destruct (Nat.leb_spec (off + n) (length a)); [|discriminate]. intros E. injection E as <-.
  rewrite app_length. replace (_ <=? _) with true by (symmetry; apply Nat.leb_le; lia). f_equal.
  rewrite skipn_app, firstn_app, skipn_length. replace (n - (length a - off)) with 0 by lia. cbn. apply app_nil_r.
Qed.
Lemma get_u_prefix a b off n x : get_u a off n = Ok x -> get_u (a ++ b) off n = Ok x.
Proof.
  unfold get_u. destruct (slice a off n) eqn:E; try discriminate. rewrite (slice_prefix a b off n _ E). auto.
Qed.
Lemma row_size_prefix a b z : row_size a = Ok z -> row_size (a ++ b) = Ok z.
Proof.
  unfold row_size. destruct (get_u a 0 1) eqn:E; try discriminate. rewrite (get_u_prefix a b 0 1 _ E). cbn [bind].
  destruct (_ =? _)%Z; [apply get_u_prefix|]. destruct (_ =? _)%Z; apply get_u_prefix.
Qed.
Lemma skipn_len {X} (a b : list X) n : n = length a -> skipn n (a ++ b) = b.
Proof. intros ->. rewrite skipn_app, skipn_all, Nat.sub_diag. reflexivity. Qed.

(** ** operations *)
Definition op_bytes (o : wop) : list Z := match o with WRow _ _ row => row | WDdl _ op => op end.
Lemma op_ok_bytes o : op_ok o -> bytes_ok (op_bytes o) = true.
Proof. destruct o; cbn; unfold row_ok; tauto. Qed.
Lemma op_ok_len o : op_ok o -> 1 <= length (op_bytes o).
Proof. destruct o as [c i row|c op]; cbn; unfold row_ok; [lia|]. intros (_ & _ & N & _). destruct op; [congruence|cbn; lia]. Qed.

Lemma read_rows_ok rows : forall A B l fuel, Forall row_ok rows -> l = A ++ concat rows ++ B -> length rows <= fuel ->
  read_rows fuel l (length A) (length A + length (concat rows)) = Ok (rows, length A + length (concat rows)).
Proof.
  induction rows as [|r rows IH]; intros A B l fuel F E Hf.
  - cbn [concat length]. rewrite Nat.add_0_r. destruct fuel; cbn [read_rows]; rewrite Nat.leb_refl; reflexivity.
  - inversion F as [|? ? [B1 [L4 RS]] F']; subst. destruct fuel as [|fuel]; [cbn in Hf; lia|]. cbn [read_rows concat].
    rewrite app_length. replace (_ <=? length A) with false by (symmetry; apply Nat.leb_gt; lia).
    rewrite (skipn_len A _ _ eq_refl). rewrite <- app_assoc. rewrite (row_size_prefix r (concat rows ++ B) _ RS). cbn [bind].
    replace (_ =? 0)%Z with false by lia. rewrite Nat2Z.id. rewrite slice_mid. cbn [bind].
    specialize (IH (A ++ r) B (A ++ r ++ concat rows ++ B) fuel F'). rewrite <- app_assoc in IH. specialize (IH eq_refl).
    rewrite app_length in IH. rewrite Nat.add_assoc. rewrite IH by (cbn in Hf; lia). reflexivity.
Qed.
Lemma cmd_skip_ok rows : forall A B l fuel, Forall row_ok rows -> l = A ++ concat rows ++ B -> length rows <= fuel ->
  cmd_skip fuel l (length A) (length A + length (concat rows)) = Ok (length A + length (concat rows)).
Proof.
  induction rows as [|r rows IH]; intros A B l fuel F E Hf.
  - cbn [concat length]. rewrite Nat.add_0_r. destruct fuel; cbn [cmd_skip]; rewrite Nat.leb_refl; reflexivity.
  - inversion F as [|? ? [B1 [L4 RS]] F']; subst. destruct fuel as [|fuel]; [cbn in Hf; lia|]. cbn [cmd_skip concat].
    rewrite app_length. replace (_ <=? length A) with false by (symmetry; apply Nat.leb_gt; lia).
    rewrite (skipn_len A _ _ eq_refl). rewrite <- app_assoc. rewrite (row_size_prefix r (concat rows ++ B) _ RS). cbn [bind].
    replace (_ =? 0)%Z with false by lia. rewrite Nat2Z.id.
    specialize (IH (A ++ r) B (A ++ r ++ concat rows ++ B) fuel F'). rewrite <- app_assoc in IH. specialize (IH eq_refl).
    rewrite app_length in IH. rewrite Nat.add_assoc. now rewrite IH by (cbn in Hf; lia).
Qed.

(** ** one command and its data *)
Definition data (chunk : list wop) : list Z := flat_map op_bytes chunk.
Definition chunk_shape (c : rcmd) (chunk : list wop) : Prop :=
  ((c_cmd c = CMD_REPLACE \/ c_cmd c = CMD_DELETE) /\ exists rows, rows <> [] /\ chunk = map (WRow (c_cmd c) (c_id c)) rows) \/
  ((c_cmd c = CMD_DDL \/ c_cmd c = CMD_DDL_CREATE_INDEX) /\ exists op, chunk = [WDdl (c_cmd c) op]).
Definition cmd_ok (wal_crc : bool) (c : rcmd) (chunk : list wop) : Prop :=
  chunk_shape c chunk /\ Forall op_ok chunk /\ length (c_id c) = 16 /\ bytes_ok (c_id c) = true /\
  c_size c = u32 (Z.of_nat (length (data chunk))) /\
  (0 <= c_crc c < 2 ^ 32)%Z /\ (wal_crc = true -> c_crc c = crc_div 0 (data chunk)).
Lemma data_rows cmd id rows : data (map (WRow cmd id) rows) = concat rows.
Proof. unfold data. rewrite flat_map_concat_map, map_map. cbn. now rewrite map_id. Qed.
Lemma data_app a b : data (a ++ b) = data a ++ data b.
Proof. apply flat_map_app. Qed.
Lemma data_ok chunk : Forall op_ok chunk -> bytes_ok (data chunk) = true.
Proof.
  induction 1 as [|o l H F IH]; [reflexivity|]. unfold data. cbn [flat_map]. rewrite bytes_ok_app. apply andb_true_intro.
  split; [now apply op_ok_bytes|exact IH].
Qed.
Lemma rcmd_bytes_length c : length (c_id c) = 16 -> length (rcmd_bytes c) = 25.
Proof. intros H. unfold rcmd_bytes. rewrite !app_length, !le_enc_length, H. reflexivity. Qed.
Lemma crc_sse_div c l : (0 <= c < 2 ^ 32)%Z -> bytes_ok l = true -> crc c l = crc_div c l.
Proof. apply crc32_sse_div. Qed.
Lemma u32_small z : (0 <= z < 2 ^ 32)%Z -> u32 z = z.
Proof. apply Z.mod_small. Qed.
Lemma u32_range z : (0 <= u32 z < 2 ^ 32)%Z.
Proof. apply Z.mod_pos_bound. lia. Qed.
Lemma cmd_range c w chunk : cmd_ok w c chunk -> (0 <= c_cmd c < 2 ^ 8)%Z.
Proof. intros (S & _). unfold chunk_shape, CMD_REPLACE, CMD_DELETE, CMD_DDL, CMD_DDL_CREATE_INDEX in S. lia. Qed.

Lemma read_rcmd_at w c chunk l A B off : cmd_ok w c chunk -> l = A ++ rcmd_bytes c ++ B -> off = length A -> read_rcmd l off = Ok c.
Proof.
  intros H E ->. pose proof (cmd_range c w chunk H) as RC. destruct H as (_ & _ & L & _ & Sz & RK & _).
  assert (0 <= c_size c < 2 ^ 32)%Z as RS by (rewrite Sz; apply u32_range).
  unfold read_rcmd. unfold rcmd_bytes in E. rewrite <- !app_assoc in E.
  assert (le_enc 1 (c_cmd c) = [c_cmd c]) as E1 by (cbn; rewrite Z.mod_small by (change (2 ^ 8)%Z with 256%Z in RC; lia); reflexivity).
  rewrite (get_u_at l A (c_cmd c) 1 (le_enc 4 (c_size c) ++ le_enc 4 (c_crc c) ++ c_id c ++ B)); [|now rewrite E1|reflexivity|exact RC]. cbn [bind].
  rewrite (get_u_at l (A ++ [c_cmd c]) (c_size c) 4 (le_enc 4 (c_crc c) ++ c_id c ++ B)); [|now rewrite <- app_assoc|rewrite app_length; reflexivity|exact RS]. cbn [bind].
  rewrite (get_u_at l (A ++ [c_cmd c] ++ le_enc 4 (c_size c)) (c_crc c) 4 (c_id c ++ B)); [|now rewrite <- !app_assoc|rewrite !app_length, le_enc_length; reflexivity|exact RK]. cbn [bind].
  rewrite (slice_at l (A ++ [c_cmd c] ++ le_enc 4 (c_size c) ++ le_enc 4 (c_crc c)) (c_id c) B); [|now rewrite <- !app_assoc|rewrite !app_length, !le_enc_length; reflexivity|now rewrite L].
  cbn [bind]. destruct c; reflexivity.
Qed.

Lemma concat_length_ge rows : Forall row_ok rows -> length rows <= length (concat rows).
Proof. induction 1 as [|r rows [_ [L _]] F IH]; cbn; [lia|]. rewrite app_length. lia. Qed.
Lemma shape_rows_ok cmd id rows : Forall op_ok (map (WRow cmd id) rows) -> Forall row_ok rows.
Proof. intros F. apply Forall_forall. intros r Hr. rewrite Forall_forall in F. specialize (F (WRow cmd id r)). cbn in F. apply F. apply in_map. exact Hr. Qed.

Lemma replay_cmd_ok w c chunk l A B : cmd_ok w c chunk -> l = A ++ data chunk ++ B -> (Z.of_nat (length (data chunk)) < 2 ^ 32)%Z ->
  replay_cmd (fun _ _ => false) l c (length A) = Ok (chunk, length A + length (data chunk)).
Proof.
  intros (S & F & L & _ & Sz & _) E Sm. rewrite u32_small in Sz by lia. unfold replay_cmd. rewrite Sz, Nat2Z.id.
  destruct S as [[C (rows & N & ->)]|[C (op & ->)]].
  - replace ((c_cmd c =? CMD_REPLACE) || (c_cmd c =? CMD_DELETE))%Z with true by lia.
    rewrite data_rows in *. pose proof (shape_rows_ok _ _ _ F) as Fr. pose proof (concat_length_ge rows Fr).
    rewrite (read_rows_ok rows A B l) by (auto; subst l; rewrite !app_length; lia). reflexivity.
  - replace ((c_cmd c =? CMD_REPLACE) || (c_cmd c =? CMD_DELETE))%Z with false by (unfold CMD_REPLACE, CMD_DELETE, CMD_DDL, CMD_DDL_CREATE_INDEX in *; lia).
    replace ((c_cmd c =? CMD_DDL) || (c_cmd c =? CMD_DDL_CREATE_INDEX))%Z with true by lia.
    inversion F as [|? ? Ho _]; subst. destruct Ho as (_ & _ & _ & v & Hv & He). unfold data in *. cbn [flat_map op_bytes] in *. rewrite app_nil_r in *.
    rewrite (skipn_len A _ _ eq_refl), (json_skip_ok v op B Hv He). cbn [bind].
    replace (length (A ++ op ++ B) - length A - length B) with (length op) by (rewrite !app_length; lia).
    rewrite slice_mid. reflexivity.
Qed.

Lemma replay_cmds_ok w M : forall chunks A B D E l, Forall2 (cmd_ok w) M chunks ->
  l = A ++ meta_bytes M ++ B ++ flat_map data chunks ++ D -> (Z.of_nat (length (flat_map data chunks)) < 2 ^ 32)%Z ->
  E = length A + length (meta_bytes M) + length B ->
  replay_cmds (fun _ _ => false) w l (length M) (length A) E = Ok (concat chunks).
Proof.
  induction M as [|c M IH]; intros chunks A B D E l F2 El Sm ->; inversion F2 as [|? chunk ? chunks' H F2']; subst; [reflexivity|].
  cbn [length replay_cmds concat].
  assert (meta_bytes (c :: M) = rcmd_bytes c ++ meta_bytes M) as EM by reflexivity. rewrite EM in *.
  assert (flat_map data (chunk :: chunks') = data chunk ++ flat_map data chunks') as ED by reflexivity. rewrite ED in *.
  rewrite app_length in Sm. pose proof H as (Sh & Fo & Li & Bi & Sz & RK & CK).
  assert (length (rcmd_bytes c) = 25) as L25 by now apply rcmd_bytes_length.
  rewrite (read_rcmd_at w c chunk _ A (meta_bytes M ++ B ++ data chunk ++ flat_map data chunks' ++ D)); [|exact H|now rewrite <- !app_assoc|reflexivity].
  cbn [bind]. rewrite <- !app_assoc.
  set (l := A ++ rcmd_bytes c ++ meta_bytes M ++ B ++ data chunk ++ flat_map data chunks' ++ D) in *.
  set (P := A ++ rcmd_bytes c ++ meta_bytes M ++ B).
  assert (l = P ++ data chunk ++ flat_map data chunks' ++ D) as El by (unfold l, P; now rewrite <- !app_assoc).
  assert (length A + length (rcmd_bytes c ++ meta_bytes M) + length B = length P) as LP by (unfold P; rewrite !app_length; lia). rewrite LP.
  assert (match (if w then record_validate_cmd c l (length P) else Ok true) with Ok v => v = true | _ => False end) as V.
  { destruct w; [|reflexivity]. unfold record_validate_cmd.
    rewrite (slice_at l P (data chunk) (flat_map data chunks' ++ D)); [|exact El|reflexivity|rewrite Sz, u32_small by lia; lia]. cbn [bind].
    rewrite crc_sse_div by (try lia; apply data_ok; exact Fo). apply Z.eqb_eq. symmetry. now apply CK. }
  destruct (if w then record_validate_cmd c l (length P) else Ok true) as [v| |]; try contradiction. subst v. cbn [bind].
  rewrite (replay_cmd_ok w c chunk l P (flat_map data chunks' ++ D) H El) by lia. cbn [bind].
  replace (length A + 25) with (length (A ++ rcmd_bytes c)) by (rewrite app_length; lia).
  rewrite (IH chunks' (A ++ rcmd_bytes c) (B ++ data chunk) D _ l F2').
  - reflexivity.
  - unfold l. now rewrite <- !app_assoc.
  - lia.
  - unfold P. rewrite !app_length. lia.
Qed.

(** ** building the log *)
Definition LogInv (w : bool) (l : write_log) (ops : list wop) : Prop :=
  l_iov l = map op_bytes ops /\ exists chunks, concat chunks = ops /\ Forall2 (cmd_ok w) (l_meta l) chunks.

Lemma last_opt_snoc {A} (l : list A) x : last_opt (l ++ [x]) = Some x.
Proof. unfold last_opt. now rewrite rev_app_distr. Qed.
Lemma set_last_snoc {A} (l : list A) x f : set_last (l ++ [x]) f = l ++ [f x].
Proof. unfold set_last. rewrite rev_app_distr. cbn. now rewrite rev_involutive. Qed.
Lemma snoc_cases {A} (l : list A) : l = [] \/ exists r x, l = r ++ [x].
Proof. destruct l as [|a l]; [now left|right]. destruct (exists_last (l := a :: l) ltac:(discriminate)) as (r & x & E). eauto. Qed.
Lemma zlist_eqb_eq a : forall b, zlist_eqb a b = true <-> a = b.
Proof.
  induction a as [|x a IH]; intros [|y b]; cbn; try easy. rewrite andb_true_iff, IH, Z.eqb_eq. split; [intros [-> ->]; reflexivity|intros E; injection E; auto].
Qed.
Lemma crc0_range w (x : Z) l : (0 <= x < 2 ^ 32)%Z -> bytes_ok l = true -> (0 <= (if w : bool then crc x l else x) < 2 ^ 32)%Z.
Proof. intros H B. destruct w; [rewrite crc_sse_div by auto; now apply crc_div_range|exact H]. Qed.

Lemma add_op_inv w l ops o : LogInv w l ops -> op_ok o -> LogInv w (add_op w l o) (ops ++ [o]).
Proof.
  intros (Ei & chunks & Ec & F2) Ho. split.
  { destruct o; cbn; rewrite Ei, map_app; reflexivity. }
  destruct o as [cmd id row|cmd op]; cbn [add_op].
  - destruct Ho as (C & Li & Bi & Hr). pose proof Hr as (Br & L4 & _). unfold write_log_add. cbn [l_meta].
    assert (forall c chunk, cmd_ok w c chunk -> c_cmd c = cmd -> c_id c = id ->
       cmd_ok w (mkrcmd (c_cmd c) (u32 (c_size c + Z.of_nat (length row))) (if w then crc (c_crc c) row else c_crc c) (c_id c)) (chunk ++ [WRow cmd id row])) as Ext.
    { intros c chunk (S & F & L16 & Bc & Sz & RK & CK) Ecmd Eid. split; [|split; [|split; [|split; [|split; [|split]]]]]; cbn [c_cmd c_id c_size c_crc].
      - left. destruct S as [[C' (rows & N & ->)]|[C' _]]; [|exfalso; unfold CMD_REPLACE, CMD_DELETE, CMD_DDL, CMD_DDL_CREATE_INDEX in *; lia].
        cbn [c_cmd c_id]. split; [exact C'|]. exists (rows ++ [row]). split; [now destruct rows|]. rewrite map_app, Ecmd, Eid. reflexivity.
      - apply Forall_app. split; [exact F|]. constructor; [|constructor]. cbn. auto.
      - exact L16.
      - exact Bc.
      - rewrite data_app. unfold data at 2. cbn [flat_map op_bytes]. rewrite app_nil_r, app_length, Sz. unfold u32.
        rewrite Z.add_mod_idemp_l by lia. f_equal. lia.
      - now apply crc0_range.
      - intros ->. rewrite crc_sse_div by auto. rewrite (CK eq_refl). rewrite data_app. unfold data at 3. cbn [flat_map op_bytes]. rewrite app_nil_r.
        symmetry. apply crc_div_app. now apply data_ok. }
    destruct (snoc_cases (l_meta l)) as [En|(mr & c & En)].
    + rewrite En in *. inversion F2; subst. cbn. exists [[WRow cmd id row]]. split; [reflexivity|]. constructor; [|constructor].
      split; [|split; [|split; [|split; [|split; [|split]]]]]; cbn [c_cmd c_id c_size c_crc].
      * left. split; [exact C|]. exists [row]. split; [discriminate|reflexivity].
      * constructor; [|constructor]. cbn. auto.
      * exact Li.
      * exact Bi.
      * unfold data. cbn. now rewrite app_nil_r.
      * apply crc0_range; [lia|exact Br].
      * intros ->. rewrite crc_sse_div by (auto; lia). unfold data. cbn. now rewrite app_nil_r.
    + rewrite En in *. rewrite last_opt_snoc. apply Forall2_app_inv_l in F2 as (ch1 & ch2 & F2a & F2b & ->).
      inversion F2b as [|? chunk ? ? Hc F2n]; subst. inversion F2n; subst.
      destruct ((c_cmd c =? cmd)%Z && zlist_eqb (c_id c) id) eqn:Er.
      * apply andb_true_iff in Er as [Er1 Er2]. apply Z.eqb_eq in Er1. apply zlist_eqb_eq in Er2.
        rewrite set_last_snoc. exists (ch1 ++ [chunk ++ [WRow cmd id row]]). split.
        { rewrite !concat_app. cbn. rewrite !app_nil_r, app_assoc. reflexivity. }
        apply Forall2_app; [exact F2a|]. constructor; [|constructor]. now apply Ext.
      * rewrite set_last_snoc. exists ((ch1 ++ [chunk]) ++ [[WRow cmd id row]]). split.
        { rewrite !concat_app. cbn. now rewrite !app_nil_r. }
        apply Forall2_app; [now apply Forall2_app; [exact F2a|constructor; [exact Hc|constructor]]|]. constructor; [|constructor].
        split; [|split; [|split; [|split; [|split; [|split]]]]]; cbn [c_cmd c_id c_size c_crc].
        -- left. split; [exact C|]. exists [row]. split; [discriminate|reflexivity].
        -- constructor; [|constructor]. cbn. auto.
        -- exact Li.
        -- exact Bi.
        -- unfold data. cbn. now rewrite app_nil_r.
        -- apply crc0_range; [lia|exact Br].
        -- intros ->. rewrite crc_sse_div by (auto; lia). unfold data. cbn. now rewrite app_nil_r.
  - pose proof Ho as (C & Bo & No & _). unfold write_log_add_op. cbn [l_meta]. exists (chunks ++ [[WDdl cmd op]]). split.
    { rewrite concat_app, Ec. cbn. reflexivity. }
    apply Forall2_app; [exact F2|]. constructor; [|constructor].
    split; [|split; [|split; [|split; [|split; [|split]]]]]; cbn [c_cmd c_id c_size c_crc].
    + right. split; [exact C|]. eauto.
    + constructor; [exact Ho|constructor].
    + reflexivity.
    + reflexivity.
    + unfold data. cbn. now rewrite app_nil_r.
    + apply (crc0_range w 0 op); [lia|exact Bo].
    + intros ->. rewrite crc_sse_div by (auto; lia). unfold data. cbn. now rewrite app_nil_r.
Qed.
Lemma make_log_inv w ops : forall l pre, LogInv w l pre -> Forall op_ok ops -> LogInv w (fold_left (add_op w) ops l) (pre ++ ops).
Proof.
  induction ops as [|o ops IH]; intros l pre I F; [now rewrite app_nil_r|]. inversion F; subst. cbn [fold_left].
  replace (pre ++ o :: ops) with ((pre ++ [o]) ++ ops) by now rewrite <- app_assoc. apply IH; [now apply add_op_inv|assumption].
Qed.
Lemma make_log_ok w ops : Forall op_ok ops -> LogInv w (make_log w ops) ops.
Proof. intros F. apply (make_log_inv w ops log_empty [] ); [|exact F]. split; [reflexivity|]. exists []. split; [reflexivity|constructor]. Qed.

(** ** building the record *)
Definition all_metas (wr : write) : list rcmd := concat (w_metas wr).
Definition WriteInv (w : bool) (wr : write) (ops : list wop) : Prop :=
  flat_map (@concat Z) (w_logs wr) = data ops /\
  (exists chunks, concat chunks = ops /\ Forall2 (cmd_ok w) (all_metas wr) chunks) /\
  h_lsn (w_header wr) = 0%Z /\
  h_size (w_header wr) = u32 (24 + Z.of_nat (length (meta_bytes (all_metas wr))) + Z.of_nat (length (data ops))) /\
  h_count (w_header wr) = u32 (Z.of_nat (length (all_metas wr))) /\
  h_ops (w_header wr) = u32 (Z.of_nat (length ops)) /\
  (0 <= h_crc (w_header wr) < 2 ^ 32)%Z /\ (w = true -> h_crc (w_header wr) = crc_div 0 (meta_bytes (all_metas wr))).
Lemma le_enc_bytes n : forall v, bytes_ok (le_enc n v) = true.
Proof.
  induction n as [|n IH]; intros v; [reflexivity|]. cbn [le_enc]. apply bytes_ok_cons. split; [apply Z.mod_pos_bound; lia|apply IH].
Qed.
Lemma rcmd_bytes_ok c : (0 <= c_cmd c < 2 ^ 8)%Z -> bytes_ok (c_id c) = true -> bytes_ok (rcmd_bytes c) = true.
Proof.
  intros R B. unfold rcmd_bytes. rewrite !bytes_ok_app, !le_enc_bytes, B. cbn [bytes_ok forallb].
  change (2 ^ 8)%Z with 256%Z in R. rewrite andb_true_r. cbn [app]. unfold byte_ok. lia.
Qed.
Lemma meta_bytes_app a b : meta_bytes (a ++ b) = meta_bytes a ++ meta_bytes b.
Proof. apply flat_map_app. Qed.
Lemma metas_ok w M : forall chunks, Forall2 (cmd_ok w) M chunks -> bytes_ok (meta_bytes M) = true /\ length (meta_bytes M) = 25 * length M.
Proof.
  induction M as [|c M IH]; intros chunks F2; [split; reflexivity|]. inversion F2 as [|? ch ? chs H F]; subst. destruct (IH _ F) as [I1 I2].
  pose proof (cmd_range _ _ _ H). destruct H as (_ & _ & L & B & _). unfold meta_bytes. cbn [flat_map]. split.
  - rewrite bytes_ok_app. apply andb_true_intro. split; [now apply rcmd_bytes_ok|exact I1].
  - rewrite app_length, rcmd_bytes_length by exact L. fold (meta_bytes M). cbn [length]. lia.
Qed.
Lemma write_add_inv w wr ops new : WriteInv w wr ops -> Forall op_ok new -> WriteInv w (write_add w wr (make_log w new)) (ops ++ new).
Proof.
  intros (D & (chunks & Ec & F2) & Hl & Hs & Hc & Ho & RK & CK) F.
  destruct (make_log_ok w new F) as (Ei & ch2 & Ec2 & F22).
  destruct (metas_ok _ _ _ F22) as [BM2 _]. destruct (metas_ok _ _ _ F2) as [BM1 _].
  assert (concat (l_iov (make_log w new)) = data new) as ED by (rewrite Ei; unfold data; now rewrite flat_map_concat_map).
  unfold WriteInv, all_metas, write_add in *. cbn [w_logs w_metas w_header h_lsn h_size h_count h_ops h_crc] in *.
  rewrite flat_map_app, concat_app. cbn [flat_map concat]. rewrite !app_nil_r, D, ED, data_app.
  split; [reflexivity|]. split; [exists (chunks ++ ch2); split; [rewrite concat_app; congruence|now apply Forall2_app]|].
  split; [exact Hl|]. rewrite meta_bytes_app, !app_length.
  split; [rewrite Hs; unfold u32; rewrite <- !Z.add_assoc, Z.add_mod_idemp_l by lia; f_equal; lia|].
  split; [rewrite Hc; unfold u32; rewrite Z.add_mod_idemp_l by lia; f_equal; lia|].
  split; [rewrite Ho, Ei, map_length; unfold u32; rewrite Z.add_mod_idemp_l by lia; f_equal; lia|].
  split; [now apply crc0_range|]. intros ->. rewrite crc_sse_div by auto. rewrite (CK eq_refl). symmetry. now apply crc_div_app.
Qed.
Lemma make_write_inv w logs : forall wr ops, WriteInv w wr ops -> Forall (Forall op_ok) logs ->
  WriteInv w (fold_left (fun wr ops => write_add w wr (make_log w ops)) logs wr) (ops ++ concat logs).
Proof.
  induction logs as [|x logs IH]; intros wr ops I F; [cbn; now rewrite app_nil_r|]. inversion F; subst. cbn [fold_left concat].
  rewrite app_assoc. apply IH; [now apply write_add_inv|assumption].
Qed.
Lemma make_write_ok w logs : Forall (Forall op_ok) logs -> WriteInv w (make_write w logs) (concat logs).
Proof.
  intros F. apply (make_write_inv w logs write_begin []); [|exact F]. unfold WriteInv, write_begin, all_metas.
  cbn [w_logs w_metas w_header h_lsn h_size h_count h_ops h_crc flat_map concat length meta_bytes data].
  split; [reflexivity|]. split; [exists []; split; [reflexivity|constructor]|]. split; [reflexivity|]. split; [reflexivity|].
  split; [reflexivity|]. split; [reflexivity|]. split; [lia|]. intros _. reflexivity.
Qed.

(** ** the bytes of a record *)
Lemma header_body_bytes h : bytes_ok (header_body h) = true /\ length (header_body h) = 20.
Proof. unfold header_body. rewrite !bytes_ok_app, !le_enc_bytes, !app_length, !le_enc_length. auto. Qed.
Lemma header_length h : length (header_bytes h) = 24.
Proof. unfold header_bytes. rewrite app_length, le_enc_length. now rewrite (proj2 (header_body_bytes h)). Qed.
Definition header_range (h : header) : Prop :=
  (0 <= h_crc h < 2 ^ 32 /\ 0 <= h_lsn h < 2 ^ 64 /\ 0 <= h_size h < 2 ^ 32 /\ 0 <= h_count h < 2 ^ 32 /\ 0 <= h_ops h < 2 ^ 32)%Z.
Lemma read_header_at h B : header_range h -> read_header (header_bytes h ++ B) = Ok h.
Proof.
  intros (R1 & R2 & R3 & R4 & R5). unfold read_header, header_bytes, header_body. rewrite <- !app_assoc.
  set (l := le_enc 4 (h_crc h) ++ le_enc 8 (h_lsn h) ++ le_enc 4 (h_size h) ++ le_enc 4 (h_count h) ++ le_enc 4 (h_ops h) ++ B).
  rewrite (get_u_at l [] (h_crc h) 4 (le_enc 8 (h_lsn h) ++ le_enc 4 (h_size h) ++ le_enc 4 (h_count h) ++ le_enc 4 (h_ops h) ++ B)) by (auto; exact R1). cbn [bind].
  rewrite (get_u_at l (le_enc 4 (h_crc h)) (h_lsn h) 8 (le_enc 4 (h_size h) ++ le_enc 4 (h_count h) ++ le_enc 4 (h_ops h) ++ B)); [|reflexivity|now rewrite le_enc_length|exact R2]. cbn [bind].
  rewrite (get_u_at l (le_enc 4 (h_crc h) ++ le_enc 8 (h_lsn h)) (h_size h) 4 (le_enc 4 (h_count h) ++ le_enc 4 (h_ops h) ++ B)); [|unfold l; now rewrite <- !app_assoc|now rewrite app_length, !le_enc_length|exact R3]. cbn [bind].
  rewrite (get_u_at l (le_enc 4 (h_crc h) ++ le_enc 8 (h_lsn h) ++ le_enc 4 (h_size h)) (h_count h) 4 (le_enc 4 (h_ops h) ++ B)); [|unfold l; now rewrite <- !app_assoc|now rewrite !app_length, !le_enc_length|exact R4]. cbn [bind].
  rewrite (get_u_at l (le_enc 4 (h_crc h) ++ le_enc 8 (h_lsn h) ++ le_enc 4 (h_size h) ++ le_enc 4 (h_count h)) (h_ops h) 4 B); [|unfold l; now rewrite <- !app_assoc|now rewrite !app_length, !le_enc_length|exact R5]. cbn [bind].
  destruct h; reflexivity.
Qed.

(** the size of the record of a write in bytes *)
Definition write_size (w : bool) (logs : list (list wop)) : Z :=
  (24 + Z.of_nat (length (meta_bytes (all_metas (make_write w logs)))) + Z.of_nat (length (data (concat logs))))%Z.
Lemma record_facts w lsn logs : Forall (Forall op_ok) logs -> (0 <= lsn < 2 ^ 64)%Z -> (write_size w logs < 2 ^ 32)%Z ->
  let wr := write_end w (make_write w logs) lsn in
  let M := all_metas (make_write w logs) in
  record_of w lsn logs = header_bytes (w_header wr) ++ meta_bytes M ++ data (concat logs) /\
  header_range (w_header wr) /\ h_lsn (w_header wr) = lsn /\ h_size (w_header wr) = write_size w logs /\
  h_count (w_header wr) = Z.of_nat (length M) /\ h_ops (w_header wr) = Z.of_nat (length (concat logs)) /\ bytes_ok (meta_bytes M) = true /\ length (meta_bytes M) = 25 * length M /\
  (exists chunks, concat chunks = concat logs /\ Forall2 (cmd_ok w) M chunks) /\
  (w = true -> h_crc (w_header wr) = crc_div 0 (meta_bytes M ++ header_body (w_header wr))).
Proof.
  intros F Rl Sm wr M. destruct (make_write_ok w logs F) as (D & (chunks & Ec & F2) & Hl & Hs & Hc & Ho & RK & CK).
  fold M in F2, Hs, Hc, CK. destruct (metas_ok _ _ _ F2) as [BM LM]. unfold write_size in Sm. fold M in Sm.
  assert (length (concat logs) <= length (data (concat logs))) as LO.
  { apply Forall_concat in F. clear - F. induction F as [|o l H F IH]; [cbn; lia|]. unfold data in *. cbn [flat_map length]. rewrite app_length. pose proof (op_ok_len o H). lia. }
  assert (h_size (w_header wr) = write_size w logs) as E1 by (unfold wr, write_end; cbn [w_header h_size]; rewrite Hs; apply u32_small; unfold write_size; fold M; lia).
  assert (h_count (w_header wr) = Z.of_nat (length M)) as E2 by (unfold wr, write_end; cbn [w_header h_count]; rewrite Hc; apply u32_small; lia).
  assert (h_ops (w_header wr) = Z.of_nat (length (concat logs))) as E3 by (unfold wr, write_end; cbn [w_header h_ops]; rewrite Ho; apply u32_small; lia).
  assert (h_lsn (w_header wr) = lsn) as E4 by (unfold wr, write_end; cbn [w_header h_lsn]; now apply Z.mod_small).
  assert (header_body (w_header wr) = header_body (mkheader (h_crc (w_header (make_write w logs))) (lsn mod 2 ^ 64) (h_size (w_header (make_write w logs))) (h_count (w_header (make_write w logs))) (h_ops (w_header (make_write w logs))))) as E5 by reflexivity.
  split; [|split; [|split; [exact E4|split; [exact E1|split; [exact E2|split; [exact E3|split; [exact BM|split; [exact LM|split; [eauto|]]]]]]]]].
  - unfold record_of, write_bytes. fold wr. f_equal. unfold wr, write_end. cbn [w_metas w_logs]. rewrite D. f_equal.
    unfold M, all_metas, meta_bytes. clear. induction (w_metas (make_write w logs)) as [|a l IH]; [reflexivity|]. cbn. rewrite flat_map_app. f_equal. exact IH.
  - unfold header_range. rewrite E1, E2, E3, E4. unfold write_size. fold M. split; [|split; [exact Rl|lia]].
    unfold wr, write_end. cbn [w_header h_crc]. apply crc0_range; [exact RK|apply header_body_bytes].
  - intros ->. rewrite crc_div_app by exact BM. rewrite E5, <- (CK eq_refl). unfold wr, write_end. cbn [w_header h_crc].
    rewrite crc_sse_div by (auto; apply header_body_bytes). reflexivity.
Qed.

Lemma record_length w lsn logs : Forall (Forall op_ok) logs -> (0 <= lsn < 2 ^ 64)%Z -> (write_size w logs < 2 ^ 32)%Z ->
  Z.of_nat (length (record_of w lsn logs)) = write_size w logs /\ bytes_ok (record_of w lsn logs) = true.
Proof.
  intros F R S. destruct (record_facts w lsn logs F R S) as (E & _ & _ & _ & _ & _ & BM & _). rewrite E. split.
  - rewrite !app_length, header_length. unfold write_size. lia.
  - rewrite !bytes_ok_app, BM. unfold header_bytes. rewrite bytes_ok_app, le_enc_bytes, (proj1 (header_body_bytes _)).
    cbn [andb]. apply data_ok. now apply Forall_concat.
Qed.
Lemma record_header w lsn logs B : Forall (Forall op_ok) logs -> (0 <= lsn < 2 ^ 64)%Z -> (write_size w logs < 2 ^ 32)%Z ->
  exists h, read_header (record_of w lsn logs ++ B) = Ok h /\ h_lsn h = lsn /\ h_size h = write_size w logs /\ h_ops h = Z.of_nat (length (concat logs)).
Proof.
  intros F R S. destruct (record_facts w lsn logs F R S) as (E & HR & E1 & E2 & E3 & E4 & _). rewrite E, <- app_assoc.
  eexists. split; [now apply read_header_at|]. auto.
Qed.
Lemma record_validates lsn logs : Forall (Forall op_ok) logs -> (0 <= lsn < 2 ^ 64)%Z -> (write_size true logs < 2 ^ 32)%Z ->
  record_validate (record_of true lsn logs) = Ok true.
Proof.
  intros F R S. destruct (record_facts true lsn logs F R S) as (E & HR & E1 & E2 & E3 & E4 & BM & LM & _ & CK). rewrite E.
  unfold record_validate. rewrite read_header_at by exact HR. cbn [bind].
  set (h := w_header (write_end true (make_write true logs) lsn)) in *. set (M := all_metas (make_write true logs)) in *.
  rewrite (slice_at _ (header_bytes h) (meta_bytes M) (data (concat logs))); [|reflexivity|now rewrite header_length|rewrite E3, LM; lia]. cbn [bind].
  unfold header_bytes. rewrite <- app_assoc.
  rewrite (slice_at _ (le_enc 4 (h_crc h)) (header_body h) (meta_bytes M ++ data (concat logs))); [|reflexivity|now rewrite le_enc_length|now rewrite (proj2 (header_body_bytes h))].
  cbn [bind]. rewrite !crc_sse_div; try lia; try (apply header_body_bytes); try exact BM; [|rewrite crc_sse_div by (try lia; exact BM); apply crc_div_range; [lia|exact BM]].
  rewrite (CK eq_refl), crc_div_app by exact BM. now rewrite Z.eqb_refl.
Qed.
Lemma record_replays w lsn logs : Forall (Forall op_ok) logs -> (0 <= lsn < 2 ^ 64)%Z -> (write_size w logs < 2 ^ 32)%Z ->
  replay_all w (record_of w lsn logs) = Ok (concat logs).
Proof.
  intros F R S. destruct (record_facts w lsn logs F R S) as (E & HR & E1 & E2 & E3 & E4 & BM & LM & (chunks & Ec & F2) & CK). rewrite E.
  unfold replay_all, replay_record. rewrite read_header_at by exact HR. cbn [bind].
  set (h := w_header (write_end w (make_write w logs) lsn)) in *. set (M := all_metas (make_write w logs)) in *.
  rewrite E3, Nat2Z.id. unfold write_size in S. fold M in S.
  assert (flat_map data chunks = data (concat logs)) as ED.
  { rewrite <- Ec. clear. induction chunks as [|c l IH]; [reflexivity|]. cbn. rewrite data_app. f_equal. exact IH. }
  rewrite <- Ec. apply (replay_cmds_ok w M chunks (header_bytes h) [] []); rewrite ?ED, ?app_nil_r, ?header_length, ?Ec; try reflexivity; try exact F2; cbn [length]; try lia.
Qed.

(** ** skipping the commands of some tables *)
Definition is_row (o : wop) : Prop := match o with WRow _ _ _ => True | _ => False end.
Definition of_table (skip : list Z -> bool) (o : wop) : bool := match o with WRow _ id _ => negb (skip id) | _ => true end.
Lemma filter_all {A} (p : A -> bool) l : Forall (fun x => p x = true) l -> filter p l = l.
Proof. induction 1 as [|x l H F IH]; [reflexivity|]. cbn. now rewrite H, IH. Qed.
Lemma filter_none {A} (p : A -> bool) l : Forall (fun x => p x = false) l -> filter p l = [].
Proof. induction 1 as [|x l H F IH]; [reflexivity|]. cbn. now rewrite H. Qed.
Lemma filter_flat {A} (p : A -> bool) l : filter p (concat l) = concat (map (filter p) l).
Proof. induction l as [|x l IH]; [reflexivity|]. cbn. now rewrite filter_app, IH. Qed.
Lemma replay_cmd_skip skip w c chunk l A B : cmd_ok w c chunk -> Forall is_row chunk -> l = A ++ data chunk ++ B -> (Z.of_nat (length (data chunk)) < 2 ^ 32)%Z ->
  replay_cmd (fun c _ => skip (c_id c)) l c (length A) = Ok (filter (of_table skip) chunk, length A + length (data chunk)).
Proof.
  intros (S & F & L & _ & Sz & _) Fr E Sm. rewrite u32_small in Sz by lia. unfold replay_cmd. rewrite Sz, Nat2Z.id.
  destruct S as [[C (rows & N & ->)]|[C (op & ->)]].
  - replace ((c_cmd c =? CMD_REPLACE) || (c_cmd c =? CMD_DELETE))%Z with true by lia.
    rewrite data_rows in *. pose proof (shape_rows_ok _ _ _ F) as Fo. pose proof (concat_length_ge rows Fo). destruct (skip (c_id c)) eqn:Es.
    + rewrite (cmd_skip_ok rows A B l) by (auto; subst l; rewrite !app_length; lia). cbn [bind]. rewrite filter_none; [reflexivity|].
      apply Forall_forall. intros o Ho. apply in_map_iff in Ho as (r & <- & _). cbn. now rewrite Es.
    + rewrite (read_rows_ok rows A B l) by (auto; subst l; rewrite !app_length; lia). cbn [bind]. rewrite filter_all; [reflexivity|].
      apply Forall_forall. intros o Ho. apply in_map_iff in Ho as (r & <- & _). cbn. now rewrite Es.
  - inversion Fr as [|? ? H _]; subst. destruct H.
Qed.
Lemma replay_cmds_skip skip w M : forall chunks A B D E l, Forall2 (cmd_ok w) M chunks -> Forall (Forall is_row) chunks ->
  l = A ++ meta_bytes M ++ B ++ flat_map data chunks ++ D -> (Z.of_nat (length (flat_map data chunks)) < 2 ^ 32)%Z ->
  E = length A + length (meta_bytes M) + length B ->
  replay_cmds (fun c _ => skip (c_id c)) w l (length M) (length A) E = Ok (filter (of_table skip) (concat chunks)).
Proof.
  induction M as [|c M IH]; intros chunks A B D E l F2 FR El Sm ->; inversion F2 as [|? chunk ? chunks' H F2']; subst; [reflexivity|].
  inversion FR as [|? ? FR1 FR2]; subst. cbn [length replay_cmds concat]. rewrite filter_app.
  assert (meta_bytes (c :: M) = rcmd_bytes c ++ meta_bytes M) as EM by reflexivity. rewrite EM in *.
  assert (flat_map data (chunk :: chunks') = data chunk ++ flat_map data chunks') as ED by reflexivity. rewrite ED in *.
  rewrite app_length in Sm. pose proof H as (Sh & Fo & Li & Bi & Sz & RK & CK).
  assert (length (rcmd_bytes c) = 25) as L25 by now apply rcmd_bytes_length.
  rewrite (read_rcmd_at w c chunk _ A (meta_bytes M ++ B ++ data chunk ++ flat_map data chunks' ++ D)); [|exact H|now rewrite <- !app_assoc|reflexivity].
  cbn [bind]. rewrite <- !app_assoc.
  set (l := A ++ rcmd_bytes c ++ meta_bytes M ++ B ++ data chunk ++ flat_map data chunks' ++ D) in *.
  set (P := A ++ rcmd_bytes c ++ meta_bytes M ++ B).
  assert (l = P ++ data chunk ++ flat_map data chunks' ++ D) as El by (unfold l, P; now rewrite <- !app_assoc).
  assert (length A + length (rcmd_bytes c ++ meta_bytes M) + length B = length P) as LP by (unfold P; rewrite !app_length; lia). rewrite LP.
  assert (match (if w then record_validate_cmd c l (length P) else Ok true) with Ok v => v = true | _ => False end) as V.
  { destruct w; [|reflexivity]. unfold record_validate_cmd.
    rewrite (slice_at l P (data chunk) (flat_map data chunks' ++ D)); [|exact El|reflexivity|rewrite Sz, u32_small by lia; lia]. cbn [bind].
    rewrite crc_sse_div by (try lia; apply data_ok; exact Fo). apply Z.eqb_eq. symmetry. now apply CK. }
  destruct (if w then record_validate_cmd c l (length P) else Ok true) as [v| |]; try contradiction. subst v. cbn [bind].
  rewrite (replay_cmd_skip skip w c chunk l P (flat_map data chunks' ++ D) H FR1 El) by lia. cbn [bind].
  replace (length A + 25) with (length (A ++ rcmd_bytes c)) by (rewrite app_length; lia).
  rewrite (IH chunks' (A ++ rcmd_bytes c) (B ++ data chunk) D _ l F2' FR2).
  - reflexivity.
  - unfold l. now rewrite <- !app_assoc.
  - lia.
  - unfold P. rewrite !app_length. lia.
Qed.
Lemma record_skips skip w lsn logs : Forall (Forall op_ok) logs -> Forall is_row (concat logs) -> (0 <= lsn < 2 ^ 64)%Z -> (write_size w logs < 2 ^ 32)%Z ->
  replay_record (fun c _ => skip (c_id c)) w (record_of w lsn logs) = Ok (filter (of_table skip) (concat logs)).
Proof.
  intros F Fr R S. destruct (record_facts w lsn logs F R S) as (E & HR & E1 & E2 & E3 & E4 & BM & LM & (chunks & Ec & F2) & CK). rewrite E.
  unfold replay_record. rewrite read_header_at by exact HR. cbn [bind].
  set (h := w_header (write_end w (make_write w logs) lsn)) in *. set (M := all_metas (make_write w logs)) in *.
  rewrite E3, Nat2Z.id. unfold write_size in S. fold M in S.
  assert (flat_map data chunks = data (concat logs)) as ED.
  { rewrite <- Ec. clear. induction chunks as [|c l IH]; [reflexivity|]. cbn. rewrite data_app. f_equal. exact IH. }
  assert (Forall (Forall is_row) chunks) as Fc.
  { rewrite <- Ec in Fr. clear - Fr. induction chunks as [|x l IH]; [constructor|]. cbn in Fr. apply Forall_app in Fr as [F1 F2]. constructor; auto. }
  rewrite <- Ec. apply (replay_cmds_skip skip w M chunks (header_bytes h) [] []); rewrite ?ED, ?app_nil_r, ?header_length, ?Ec; try reflexivity; try exact F2; try exact Fc; cbn [length]; try lia.
Qed.
