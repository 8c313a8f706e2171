(** Proofs about the heap: buckets, the chunks of the pages, the free lists. *)
From Coq Require Import Permutation.
From Verif Require Import Base HeapModel HeapSpec.
Local Open Scope Z_scope.

(** ** buckets *)
Definition bs (b : Z) : Z :=
  if b <? 64 then 16 * (b + 1) else if b <? 96 then 1024 + 32 * (b - 63) else if b <? 128 then 2048 + 64 * (b - 95)
  else if b <? 160 then 4096 + 128 * (b - 127) else if b <? 192 then 8192 + 256 * (b - 159) else if b <? 224 then 16384 + 512 * (b - 191)
  else if b <? 256 then 32768 + 1024 * (b - 223) else if b <? 288 then 65536 + 2048 * (b - 255) else if b <? 320 then 131072 + 4096 * (b - 287)
  else if b <? 352 then 262144 + 8192 * (b - 319) else if b <? 384 then 524288 + 16384 * (b - 351) else 1048576.
Lemma bsize_all : forallb (fun i => nth i buckets 0 =? bs (Z.of_nat i)) (seq 0 385) = true.
Proof. vm_compute. reflexivity. Qed.
Lemma bsize_eq b : 0 <= b < 385 -> bsize b = bs b.
Proof.
  intros H. pose proof bsize_all as A. rewrite forallb_forall in A. specialize (A (Z.to_nat b)). rewrite in_seq in A. specialize (A ltac:(lia)).
  unfold bsize. rewrite Z2Nat.id in A by lia. lia.
Qed.
Lemma bsize_pos b : 0 <= b < 385 -> 16 <= bsize b /\ bsize b mod 8 = 0.
Proof.
  intros H. rewrite bsize_eq by exact H. unfold bs.
  repeat match goal with |- context [if ?x <? ?y then _ else _] => destruct (Z.ltb_spec x y) end; split; try lia;
    match goal with |- ?x mod 8 = 0 => apply Z.mod_divide; [lia|] end.
  all: match goal with
       | |- (8 | 16 * ?x) => exists (2 * x) | |- (8 | 1024 + 32 * ?x) => exists (128 + 4 * x) | |- (8 | 2048 + 64 * ?x) => exists (256 + 8 * x)
       | |- (8 | 4096 + 128 * ?x) => exists (512 + 16 * x) | |- (8 | 8192 + 256 * ?x) => exists (1024 + 32 * x) | |- (8 | 16384 + 512 * ?x) => exists (2048 + 64 * x)
       | |- (8 | 32768 + 1024 * ?x) => exists (4096 + 128 * x) | |- (8 | 65536 + 2048 * ?x) => exists (8192 + 256 * x) | |- (8 | 131072 + 4096 * ?x) => exists (16384 + 512 * x)
       | |- (8 | 262144 + 8192 * ?x) => exists (32768 + 1024 * x) | |- (8 | 524288 + 16384 * ?x) => exists (65536 + 2048 * x) | |- (8 | 1048576) => exists 131072
       end; lia.
Qed.
(** the bucket of a size: it is large enough, and it fits into a page for the sizes below 516096 *)
Lemma bucket_ok size : 24 <= size <= 1048576 ->
  0 <= bucket_of size < 385 /\ size <= bsize (bucket_of size) /\ (size < 516096 -> bsize (bucket_of size) <= 516096).
Proof.
  intros H. pose proof (Z.log2_spec size ltac:(lia)) as [L1 L2].
  assert (B : 4 <= Z.log2 size <= 20).
  { split; [apply Z.log2_le_pow2; lia|]. apply Z.lt_succ_r. apply Z.log2_lt_pow2; lia. }
  assert (C : Z.log2 size = 4 \/ Z.log2 size = 5 \/ Z.log2 size = 6 \/ Z.log2 size = 7 \/ Z.log2 size = 8 \/ Z.log2 size = 9 \/ Z.log2 size = 10 \/ Z.log2 size = 11 \/
    Z.log2 size = 12 \/ Z.log2 size = 13 \/ Z.log2 size = 14 \/ Z.log2 size = 15 \/ Z.log2 size = 16 \/ Z.log2 size = 17 \/ Z.log2 size = 18 \/ Z.log2 size = 19 \/ Z.log2 size = 20) by lia.
  unfold bucket_of. repeat destruct C as [C|C]; rewrite C in *; clear B C;
    match type of L1 with ?x <= _ => let v := eval vm_compute in x in change x with v in L1 end;
    match type of L2 with _ < ?x => let v := eval vm_compute in x in change x with v in L2 end;
    match goal with |- context [nth ?n groups (0, 0)] => let v := eval vm_compute in (nth n groups (0, 0)) in change (nth n groups (0, 0)) with v end;
    cbv beta iota;
    match goal with |- context [?x =? 0] => let v := eval vm_compute in (x =? 0) in change (x =? 0) with v end;
    try match goal with |- context [?x <=? 9] => let v := eval vm_compute in (x <=? 9) in change (x <=? 9) with v end;
    try match goal with |- context [Z.shiftl 1 ?x] => let v := eval vm_compute in (Z.shiftl 1 x) in change (Z.shiftl 1 x) with v end;
    cbv beta iota.
  all: try match goal with |- context [?x / ?y] => pose proof (Z.div_mod x y ltac:(lia)); pose proof (Z.mod_pos_bound x y ltac:(lia)); set (q := x / y) in *; clearbody q end.
  all: match goal with |- 0 <= ?b < 385 /\ _ => assert (0 <= b < 385) by lia; split; [assumption|]; rewrite (bsize_eq b) by assumption; unfold bs end.
  all: repeat match goal with |- context [if ?x <? ?y then _ else _] => destruct (Z.ltb_spec x y) end; lia.
Qed.

(** ** the chunks *)
Lemma addr_eqb_eq a b : addr_eqb a b = true <-> a = b.
Proof. unfold addr_eqb. destruct a as [p o], b as [q r]. cbn [fst snd]. rewrite Bool.andb_true_iff, Nat.eqb_eq, Z.eqb_eq. split; [intros [-> ->]; reflexivity|intros [= -> ->]; auto]. Qed.
Lemma addr_dec (a b : addr) : {a = b} + {a <> b}.
Proof. destruct (addr_eqb a b) eqn:E; [left; now apply addr_eqb_eq|right; intros ->; rewrite (proj2 (addr_eqb_eq b b) eq_refl) in E; discriminate]. Qed.
Lemma mset_same m a c : mset m a c a = c.
Proof. unfold mset. now rewrite (proj2 (addr_eqb_eq a a) eq_refl). Qed.
Lemma mset_other m a c x : x <> a -> mset m a c x = m x.
Proof. intros H. unfold mset. destruct (addr_eqb x a) eqn:E; [apply addr_eqb_eq in E; congruence|reflexivity]. Qed.
Lemma bset_same m b v : bset m b v b = v.
Proof. unfold bset. now rewrite Z.eqb_refl. Qed.
Lemma bset_other m b v x : x <> b -> bset m b v x = m x.
Proof. intros H. unfold bset. now rewrite (proj2 (Z.eqb_neq x b) H). Qed.

Definition nxt (m : addr -> chunk) (a : addr) : addr :=
  if c_last (m a) then (S (fst a), PAGE_HEADER) else (fst a, snd a + bsize (c_bucket (m a))).
Definition okc (m : addr -> chunk) (pages : list Z) (a : addr) : Prop :=
  0 <= c_bucket (m a) < 385 /\ PAGE_HEADER <= snd a /\ snd a mod 8 = 0 /\ snd a + bsize (c_bucket (m a)) <= nth (fst a) pages 0.
Fixpoint walk (m : addr -> chunk) (pages : list Z) (L : list addr) (first : addr) : Prop :=
  match L with
  | [] => True
  | a :: r => a = first /\ okc m pages a /\ match r with [] => c_last (m a) = true | _ => walk m pages r (nxt m a) end
  end.
Definition before (m : addr -> chunk) (a b : addr) : Prop :=
  (fst a < fst b)%nat \/ fst a = fst b /\ snd a + bsize (c_bucket (m a)) <= snd b.
Fixpoint ordered (m : addr -> chunk) (L : list addr) : Prop :=
  match L with [] => True | a :: r => Forall (before m a) r /\ ordered m r end.
Lemma walk_okc m pages L : forall first, walk m pages L first -> Forall (okc m pages) L.
Proof.
  induction L as [|a L IH]; intros first H; [constructor|]. cbn [walk] in H. destruct H as (-> & O & H). constructor; [exact O|].
  destruct L; [constructor|]. now apply IH with (first := nxt m first).
Qed.
Lemma before_nxt m pages a L : okc m pages a -> walk m pages L (nxt m a) -> Forall (before m a) L.
Proof.
  revert a. induction L as [|b L IH]; intros a O W; [constructor|]. cbn [walk] in W. destruct W as (-> & O' & W).
  assert (B : before m a (nxt m a)) by (unfold before, nxt; destruct (c_last (m a)); cbn [fst snd]; [left|right]; lia).
  constructor; [exact B|]. destruct L as [|c L]; [constructor|]. specialize (IH _ O' W). apply Forall_impl with (2 := IH). intros x Hx.
  clear -B Hx O O'. pose proof (bsize_pos _ (proj1 O')). unfold before in *. destruct B as [B|[B1 B2]], Hx as [Hx|[Hx1 Hx2]]; [left; lia|left; lia|left; lia|right; lia].
Qed.
Lemma walk_ordered m pages L : forall first, walk m pages L first -> ordered m L.
Proof.
  induction L as [|a L IH]; intros first H; [exact Logic.I|]. cbn [walk] in H. destruct H as (-> & O & H). cbn [ordered].
  destruct L as [|b L]; [split; [constructor|exact Logic.I]|]. split; [now apply before_nxt with (pages := pages)|now apply IH with (first := nxt m first)].
Qed.
Lemma ordered_nodup m pages L : Forall (okc m pages) L -> ordered m L -> NoDup L.
Proof.
  induction L as [|a L IH]; intros F O; [constructor|]. inversion F as [|? ? F1 F2]; subst. destruct O as [O1 O2]. constructor; [|now apply IH].
  intros Hin. rewrite Forall_forall in O1. specialize (O1 a Hin). pose proof (bsize_pos _ (proj1 F1)). unfold before in O1. lia.
Qed.
Lemma walk_ext m m' pages pages' L : (forall a, In a L -> c_bucket (m' a) = c_bucket (m a)) -> (forall a, In a L -> c_last (m' a) = c_last (m a)) ->
  (forall i, (exists a, In a L /\ fst a = i) -> nth i pages 0 <= nth i pages' 0) -> forall first, walk m pages L first -> walk m' pages' L first.
Proof.
  induction L as [|a L IH]; intros H1 H2 H3 first W; [exact Logic.I|]. cbn [walk] in *. destruct W as (-> & (O1 & O2 & O3 & O4) & W). split; [reflexivity|].
  assert (Ea : c_bucket (m' first) = c_bucket (m first)) by (apply H1; now left). assert (Eb : c_last (m' first) = c_last (m first)) by (apply H2; now left). split.
  - unfold okc. rewrite Ea. repeat split; try lia. specialize (H3 (fst first) (ex_intro _ first (conj (or_introl eq_refl) eq_refl))). lia.
  - assert (En : nxt m' first = nxt m first) by (unfold nxt; now rewrite Ea, Eb). rewrite En, Eb. destruct L as [|b L]; [exact W|].
    apply IH; [intros; apply H1; now right|intros; apply H2; now right|intros i (x & Hx & Hi); apply H3; exists x; split; [now right|exact Hi]|exact W].
Qed.
Lemma walk_snoc m m' pages pages' L : forall l first a,
  (forall x, In x (L ++ [l]) -> c_bucket (m' x) = c_bucket (m x)) -> (forall x, In x L -> c_last (m' x) = c_last (m x)) ->
  (forall i, (exists x, In x (L ++ [l]) /\ fst x = i) -> nth i pages 0 <= nth i pages' 0) ->
  walk m pages (L ++ [l]) first -> a = nxt m' l -> okc m' pages' a -> c_last (m' a) = true -> walk m' pages' (L ++ [l; a]) first.
Proof.
  induction L as [|b L IH]; intros l first a H1 H2 H3 W Ea O Hl.
  - cbn [app walk] in *. destruct W as (-> & (O1 & O2 & O3 & O4) & W). split; [reflexivity|]. split; [|auto].
    assert (Eb : c_bucket (m' first) = c_bucket (m first)) by (apply H1; now left). unfold okc. rewrite Eb. repeat split; try lia.
    specialize (H3 (fst first) (ex_intro _ first (conj (or_introl eq_refl) eq_refl))). lia.
  - cbn [app walk] in *. destruct W as (-> & (O1 & O2 & O3 & O4) & W).
    assert (Eb : c_bucket (m' first) = c_bucket (m first)) by (apply H1; now left). assert (El : c_last (m' first) = c_last (m first)) by (apply H2; now left).
    split; [reflexivity|]. split.
    + unfold okc. rewrite Eb. repeat split; try lia. specialize (H3 (fst first) (ex_intro _ first (conj (or_introl eq_refl) eq_refl))). lia.
    + assert (En : nxt m' first = nxt m first) by (unfold nxt; now rewrite Eb, El).
      assert (G : walk m' pages' (L ++ [l; a]) (nxt m first)).
      { destruct (L ++ [l]) as [|x y] eqn:E; [destruct L; discriminate|]. rewrite <- E in W. refine (IH l _ a _ _ _ W Ea O Hl).
        - intros z Hz. apply H1. rewrite E in Hz. now right.
        - intros z Hz. apply H2. now right.
        - intros i (z & Hz & Hi). apply H3. rewrite E in Hz. exists z. split; [now right|exact Hi]. }
      rewrite En. destruct (L ++ [l; a]) eqn:E; [destruct L; discriminate|exact G].
Qed.

(** ** free lists *)
Fixpoint chain (m : addr -> chunk) (head : addr) (fl : list addr) : Prop :=
  match fl with [] => True | a :: r => head = a /\ chain m (c_prev (m a)) r end.
Lemma chain_ext m m' fl : (forall a, In a fl -> c_prev (m' a) = c_prev (m a)) -> forall head, chain m head fl -> chain m' head fl.
Proof.
  induction fl as [|a fl IH]; intros H head C; [exact Logic.I|]. cbn [chain] in *. destruct C as [-> C]. split; [reflexivity|]. rewrite (H a) by now left. apply IH; [|exact C]. intros; apply H; now right.
Qed.

Record hinv (h : heap) (L : list addr) : Prop := mkinv {
  i_walk : walk (h_mem h) (h_pages h) L (0%nat, PAGE_HEADER);
  i_page : Forall (fun z => 0 <= z <= PAGE) (h_pages h);
  i_end : match L with
          | [] => h_last h = None /\ h_pages h = []
          | _ => let l := List.last L (0%nat, 0) in h_last h = Some l /\ length (h_pages h) = S (fst l) /\ last_size h = snd l + bsize (c_bucket (h_mem h l))
          end;
  i_free : forall b, exists fl, chain (h_mem h) (fst (h_bkt h b)) fl /\ snd (h_bkt h b) = Z.of_nat (length fl) /\ NoDup fl /\
             forall a, In a fl <-> In a L /\ c_free (h_mem h a) = true /\ c_bucket (h_mem h a) = b }.

Lemma inv_okc h L a : hinv h L -> In a L -> okc (h_mem h) (h_pages h) a.
Proof. intros I H. pose proof (walk_okc _ _ _ _ (i_walk _ _ I)) as F. rewrite Forall_forall in F. now apply F. Qed.
Lemma inv_nodup h L : hinv h L -> NoDup L.
Proof. intros I. apply (ordered_nodup (h_mem h) (h_pages h)); [apply (walk_okc _ _ _ _ (i_walk _ _ I))|apply (walk_ordered _ _ _ _ (i_walk _ _ I))]. Qed.
Lemma inv_init : hinv heap_allocate [].
Proof. split; cbn; [exact Logic.I|constructor|auto|]. intros b. exists []. split; [exact Logic.I|]. split; [reflexivity|]. split; [constructor|]. cbn; tauto. Qed.
Lemma ordered_pair m L : ordered m L -> forall a b, In a L -> In b L -> a <> b -> before m a b \/ before m b a.
Proof.
  induction L as [|x L IH]; intros O a b Ha Hb N; [destruct Ha|]. destruct O as [O1 O2]. rewrite Forall_forall in O1.
  destruct Ha as [->|Ha], Hb as [->|Hb]; [congruence|left; now apply O1|right; now apply O1|now apply IH].
Qed.
Lemma inv_disjoint h L a b : hinv h L -> In a L -> In b L -> a <> b ->
  fst a <> fst b \/ snd a + bsize (c_bucket (h_mem h a)) <= snd b \/ snd b + bsize (c_bucket (h_mem h b)) <= snd a.
Proof.
  intros I Ha Hb N. destruct (ordered_pair _ _ (walk_ordered _ _ _ _ (i_walk _ _ I)) a b Ha Hb N) as [[B|[B1 B2]]|[B|[B1 B2]]]; [left; lia|right; left; lia|left; lia|right; right; lia].
Qed.
Lemma nth_page h L a : hinv h L -> In a L -> (fst a < length (h_pages h))%nat /\ nth (fst a) (h_pages h) 0 <= PAGE.
Proof.
  intros I H. destruct (inv_okc h L a I H) as (O1 & O2 & O3 & O4). pose proof (bsize_pos _ O1).
  destruct (Nat.lt_ge_cases (fst a) (length (h_pages h))) as [Hl|Hl].
  - split; [exact Hl|]. pose proof (i_page _ _ I) as P. rewrite Forall_forall in P. apply P. now apply nth_In.
  - exfalso. rewrite nth_overflow in O4 by exact Hl. unfold PAGE_HEADER in O2. lia.
Qed.

Lemma last_set l v : l <> [] -> List.last (set_last l v) 0 = v.
Proof. intros H. unfold set_last. now rewrite last_last. Qed.
Lemma set_last_len l v : l <> [] -> length (set_last l v) = length l.
Proof. intros H. unfold set_last. rewrite app_length. cbn. pose proof (app_removelast_last 0 H) as E. apply (f_equal (@length Z)) in E. rewrite app_length in E. cbn in E. lia. Qed.
Lemma nth_set_last l v i : l <> [] -> (i < length l)%nat -> nth i (set_last l v) 0 = if Nat.eqb i (length l - 1) then v else nth i l 0.
Proof.
  intros H Hi. pose proof (app_removelast_last 0 H) as E. assert (Lr : length (removelast l) = (length l - 1)%nat).
  { pose proof (f_equal (@length Z) E) as E'. rewrite app_length in E'. cbn in E'. lia. }
  unfold set_last. destruct (Nat.eqb_spec i (length l - 1)) as [->|N].
  - rewrite app_nth2 by lia. rewrite Lr, Nat.sub_diag. reflexivity.
  - rewrite app_nth1 by lia. rewrite E at 2. rewrite app_nth1 by lia. reflexivity.
Qed.
Lemma nth_last (l : list Z) : nth (length l - 1) l 0 = List.last l 0.
Proof.
  destruct l as [|x l]; [reflexivity|]. pose proof (app_removelast_last 0 (l := x :: l) ltac:(discriminate)) as E.
  assert (Lr : length (removelast (x :: l)) = (length (x :: l) - 1)%nat). { pose proof (f_equal (@length Z) E) as E'. rewrite app_length in E'. cbn [length] in *. lia. }
  rewrite E at 2. rewrite app_nth2 by lia. rewrite Lr, Nat.sub_diag. reflexivity.
Qed.

(** what heap_take does *)
Definition same_but_last (c c' : chunk) : Prop :=
  c_bucket c' = c_bucket c /\ c_free c' = c_free c /\ c_shadow c' = c_shadow c /\ c_sfree c' = c_sfree c /\ c_data c' = c_data c /\ (c_free c = true -> c_prev c' = c_prev c).
Definition fits (size : Z) : Prop := 0 <= size < 516072.

Lemma last_in {A} (L : list A) d : L <> [] -> In (List.last L d) L.
Proof. induction L as [|x L IH]; intros H; [congruence|]. destruct L as [|y L]; [now left|]. right. apply IH. discriminate. Qed.
Lemma last_split {A} (L : list A) d : L <> [] -> exists L0, L = L0 ++ [List.last L d].
Proof. intros H. exists (removelast L). now apply app_removelast_last. Qed.

Lemma take_free h L size d sh sf head count : hinv h L -> h_bkt h (bucket_of (CHUNK + size)) = (head, count) -> 0 < count ->
  let r := heap_take h size d sh sf in let h' := fst r in let a := snd r in
  hinv h' L /\ In a L /\ c_free (h_mem h a) = true /\ c_bucket (h_mem h' a) = bucket_of (CHUNK + size) /\ c_free (h_mem h' a) = false /\
  c_data (h_mem h' a) = d /\ c_shadow (h_mem h' a) = sh /\ c_sfree (h_mem h' a) = sf /\
  (forall x, x <> a -> h_mem h' x = h_mem h x).
Proof.
  intros I Eb Hc. unfold heap_take. rewrite Eb. replace (0 <? count) with true by lia. cbn [fst snd h_mem].
  set (b := bucket_of (CHUNK + size)) in *. destruct (i_free _ _ I b) as (fl & F1 & F2 & F3 & F4). rewrite Eb in F1, F2. cbn [fst snd] in F1, F2.
  destruct fl as [|a fl]; [cbn in F2; lia|]. cbn [chain] in F1. destruct F1 as [-> F1]. destruct (proj1 (F4 a) (or_introl eq_refl)) as (Ha & Hf & Hb).
  rewrite !mset_same. cbn [c_bucket c_free c_data c_shadow c_sfree]. split; [|repeat split; auto; intros x Hx; now apply mset_other].
  inversion F3 as [|? ? N1 N2]; subst.
  assert (Pb : forall x, c_bucket (mset (h_mem h) a (mkchunk (0%nat, 0) (c_bucket (h_mem h a)) false (c_last (h_mem h a)) sh sf d) x) = c_bucket (h_mem h x)) by (intros x; destruct (addr_dec x a) as [->|]; [now rewrite mset_same|now rewrite mset_other]).
  assert (Pl : forall x, c_last (mset (h_mem h) a (mkchunk (0%nat, 0) (c_bucket (h_mem h a)) false (c_last (h_mem h a)) sh sf d) x) = c_last (h_mem h x)) by (intros x; destruct (addr_dec x a) as [->|]; [now rewrite mset_same|now rewrite mset_other]).
  split; cbn [h_mem h_pages h_last h_bkt].
  - refine (walk_ext (h_mem h) _ (h_pages h) _ L _ _ _ _ (i_walk _ _ I)); auto. intros i _. lia.
  - apply (i_page _ _ I).
  - pose proof (i_end _ _ I) as E. destruct L as [|x L]; [destruct Ha|]. cbv zeta in *. unfold last_size in *. cbn [h_pages]. rewrite Pb. exact E.
  - intros b'. destruct (Z.eq_dec b' b) as [->|Nb].
    + rewrite bset_same. exists fl. cbn [fst snd]. split; [|split; [cbn [length]; lia|split; [exact N2|]]].
      * apply (chain_ext (h_mem h)); [|exact F1]. intros x Hx. rewrite mset_other; [reflexivity|congruence].
      * intros x. destruct (addr_dec x a) as [->|Nx].
        -- rewrite mset_same. cbn. split; [contradiction|intros (_ & ? & _); discriminate].
        -- rewrite mset_other by exact Nx. rewrite <- F4. cbn. split; [auto|intros [?|?]; [congruence|assumption]].
    + rewrite bset_other by exact Nb. destruct (i_free _ _ I b') as (fl' & G1 & G2 & G3 & G4). exists fl'. split; [|split; [exact G2|split; [exact G3|]]].
      * apply (chain_ext (h_mem h)); [|exact G1]. intros x Hx. apply G4 in Hx. rewrite mset_other; [reflexivity|]. intros ->. apply Nb. destruct Hx as (_ & _ & <-). exact Hb.
      * intros x. destruct (addr_dec x a) as [->|Nx]; [|rewrite mset_other by exact Nx; apply G4].
        rewrite mset_same. cbn. rewrite G4. split; [intros (_ & _ & Hx); congruence|intros (_ & ? & _); discriminate].
Qed.
Lemma fits_bucket size : fits size -> let b := bucket_of (CHUNK + size) in 0 <= b < 385 /\ CHUNK + size <= bsize b /\ PAGE_HEADER + bsize b <= PAGE.
Proof. intros [H1 H2]. unfold CHUNK in *. destruct (bucket_ok (24 + size) ltac:(lia)) as (B1 & B2 & B3). cbv zeta. specialize (B3 ltac:(lia)). unfold PAGE_HEADER, PAGE. lia. Qed.
Lemma not_in_end h L a : hinv h L -> L <> [] -> let l := List.last L (0%nat, 0) in fst a = fst l -> snd a = snd l + bsize (c_bucket (h_mem h l)) -> ~ In a L.
Proof.
  intros I N l H1 H2 Hin. pose proof (last_in L (0%nat, 0) N) as Hl. fold l in Hl. pose proof (bsize_pos _ (proj1 (inv_okc _ _ _ I Hl))) as [P _].
  destruct (addr_dec a l) as [->|Na]; [lia|]. destruct (inv_disjoint h L a l I Hin Hl Na) as [D|[D|D]]; [congruence| |].
  - pose proof (bsize_pos _ (proj1 (inv_okc _ _ _ I Hin))). lia.
  - assert (O : ordered (h_mem h) L) by apply (walk_ordered _ _ _ _ (i_walk _ _ I)). destruct (last_split L (0%nat, 0) N) as (L0 & E). fold l in E. rewrite E in O, Hin. clear -O Hin Na H1 H2 P.
    apply in_app_iff in Hin as [Hin|[?|[]]]; [|congruence]. induction L0 as [|x L0 IH]; [destruct Hin|]. cbn [app ordered] in O. destruct O as [O1 O2]. destruct Hin as [->|Hin]; [|now apply IH].
    rewrite Forall_forall in O1. assert (Hl' : In l (L0 ++ [l])) by (apply in_or_app; right; left; reflexivity). specialize (O1 l Hl'). destruct O1 as [O1|[_ O1]]; [lia|]. 
    assert (Q : exists z, z = bsize (c_bucket (h_mem h a))) by eauto. destruct Q as (z & Q). rewrite <- Q in O1.
    assert (0 <= z); [|lia]. subst z. unfold bsize. destruct (Nat.lt_ge_cases (Z.to_nat (c_bucket (h_mem h a))) 385) as [Hz|Hz].
    + pose proof bsize_all as A. rewrite forallb_forall in A. specialize (A _ (proj2 (in_seq _ _ _) (conj (Nat.le_0_l _) Hz))).
      apply Z.eqb_eq in A. rewrite A. pose proof (bsize_pos (Z.of_nat (Z.to_nat (c_bucket (h_mem h a)))) ltac:(lia)) as [B _]. rewrite bsize_eq in B by lia. lia.
    + rewrite nth_overflow; [lia|]. exact Hz.
Qed.
Lemma walk_end m pages L l : forall f, walk m pages (L ++ [l]) f -> c_last (m l) = true.
Proof.
  induction L as [|y L IH]; intros f W; cbn [app walk] in W; [tauto|]. destruct W as (_ & _ & W). destruct (L ++ [l]) eqn:E; [destruct L; discriminate|]. exact (IH _ W).
Qed.
Lemma free_keep h h' L a : hinv h L -> ~ In a L -> (forall x, x <> a -> same_but_last (h_mem h x) (h_mem h' x)) -> c_free (h_mem h' a) = false -> h_bkt h' = h_bkt h ->
  forall b, exists fl, chain (h_mem h') (fst (h_bkt h' b)) fl /\ snd (h_bkt h' b) = Z.of_nat (length fl) /\ NoDup fl /\
    forall x, In x fl <-> In x (L ++ [a]) /\ c_free (h_mem h' x) = true /\ c_bucket (h_mem h' x) = b.
Proof.
  intros I Na S Fa -> b. destruct (i_free _ _ I b) as (fl & F1 & F2 & F3 & F4). exists fl. split; [|split; [exact F2|split; [exact F3|]]].
  - apply (chain_ext (h_mem h)); [|exact F1]. intros x Hx. apply F4 in Hx as (Hx & Hf & _). apply (S x); [congruence|exact Hf].
  - intros x. destruct (addr_dec x a) as [->|Nx].
    + rewrite F4. split; [intros (? & _); contradiction|intros (_ & ? & _); congruence].
    + destruct (S x Nx) as (E1 & E2 & _). rewrite F4, E1, E2, in_app_iff. cbn. intuition congruence.
Qed.
Lemma take_bump h L size d sh sf head count : hinv h L -> fits size -> h_bkt h (bucket_of (CHUNK + size)) = (head, count) -> count <= 0 ->
  let r := heap_take h size d sh sf in let h' := fst r in let a := snd r in
  hinv h' (L ++ [a]) /\ ~ In a L /\ c_bucket (h_mem h' a) = bucket_of (CHUNK + size) /\ c_free (h_mem h' a) = false /\
  c_data (h_mem h' a) = d /\ c_shadow (h_mem h' a) = sh /\ c_sfree (h_mem h' a) = sf /\
  (forall x, x <> a -> same_but_last (h_mem h x) (h_mem h' x)).
Proof.
  intros I Fs Eb Hc. destruct (fits_bucket size Fs) as (B1 & B2 & B3). unfold heap_take. rewrite Eb. replace (0 <? count) with false by lia.
  set (b := bucket_of (CHUNK + size)) in *. clearbody b. pose proof (bsize_pos b B1) as [B4 B5]. pose proof (i_end _ _ I) as E.
  assert (Grow : forall l, (match L with [] => l = None | _ => l = Some (List.last L (0%nat, 0)) end) -> 
     let a := (length (h_pages h), PAGE_HEADER) in
     let h' := mkheap (mset (h_mem h) a (mkchunk (0%nat, 0) b false true sh sf d)) (set_last (h_pages h ++ [PAGE_HEADER]) (PAGE_HEADER + bsize b)) (Some a) (h_bkt h) (h_used h) (h_size h) in
     hinv h' (L ++ [a]) /\ ~ In a L /\ c_bucket (h_mem h' a) = b /\ c_free (h_mem h' a) = false /\ c_data (h_mem h' a) = d /\ c_shadow (h_mem h' a) = sh /\ c_sfree (h_mem h' a) = sf /\
     (forall x, x <> a -> same_but_last (h_mem h x) (h_mem h' x))).
  { intros l _ a h'.
    assert (Na : ~ In a L). { intros Hin. destruct (nth_page h L a I Hin) as [Hp _]. subst a. cbn [fst] in Hp. lia. }
    assert (Ea : h_mem h' a = mkchunk (0%nat, 0) b false true sh sf d) by apply mset_same.
    assert (Eo : forall x, x <> a -> h_mem h' x = h_mem h x) by (intros x Hx; now apply mset_other).
    assert (Es : forall x, x <> a -> same_but_last (h_mem h x) (h_mem h' x)) by (intros x Hx; rewrite Eo by exact Hx; repeat split; auto).
    assert (Ep : h_pages h' = h_pages h ++ [PAGE_HEADER + bsize b]) by (unfold h'; cbn [h_pages]; unfold set_last; now rewrite removelast_last).
    assert (Oa : okc (h_mem h') (h_pages h') a).
    { unfold okc. rewrite Ea, Ep. cbn [c_bucket]. subst a. cbn [fst snd]. rewrite app_nth2, Nat.sub_diag by lia. cbn [nth]. repeat split; try lia. }
    split; [|rewrite Ea; cbn [c_bucket c_free c_data c_shadow c_sfree]; split; [exact Na|]; do 5 (split; [reflexivity|]); exact Es].
    split.
    - destruct L as [|x0 L0] eqn:EL.
      + destruct E as [E1 E2]. cbn [app walk]. split; [subst a; rewrite E2; reflexivity|]. split; [exact Oa|now rewrite Ea].
      + destruct (last_split (x0 :: L0) (0%nat, 0) ltac:(discriminate)) as (L1 & El). cbv zeta in E. set (la := List.last (x0 :: L0) (0%nat, 0)) in *. clearbody la. rewrite El in *. clear El x0 L0. subst L.
        destruct E as (E1 & E2 & E3). rewrite <- app_assoc. cbn [app].
        assert (Hne : forall x, In x (L1 ++ [la]) -> x <> a) by (intros x Hx ->; contradiction).
        refine (walk_snoc (h_mem h) _ (h_pages h) _ L1 la _ a _ _ _ (i_walk _ _ I) _ Oa _).
        * intros x Hx. now rewrite Eo by now apply Hne.
        * intros x Hx. rewrite Eo; [reflexivity|]. apply Hne. apply in_or_app. now left.
        * intros i (x & Hx & <-). destruct (nth_page h _ x I Hx) as [Hp _]. rewrite Ep, app_nth1 by exact Hp. lia.
        * unfold nxt. rewrite Eo by (apply Hne; apply in_or_app; right; now left).
          assert (Ht : c_last (h_mem h la) = true) by apply (walk_end _ _ _ _ _ (i_walk _ _ I)).
          rewrite Ht. subst a. rewrite E2. reflexivity.
        * now rewrite Ea.
    - rewrite Ep. apply Forall_app. split; [apply (i_page _ _ I)|]. constructor; [unfold PAGE_HEADER in *; lia|constructor].
    - destruct (L ++ [a]) eqn:El; [destruct L; discriminate|]. rewrite <- El. cbv zeta. rewrite last_last. split; [reflexivity|]. rewrite Ep, app_length. split; [cbn [length fst]; unfold a; cbn [fst]; lia|].
      unfold last_size. rewrite Ep, last_last, Ea. unfold a. reflexivity.
    - apply (free_keep h h' L a I Na Es); [now rewrite Ea|reflexivity]. }
  destruct L as [|x0 L0] eqn:EL.
  - destruct E as [E1 E2]. rewrite E1. cbn [fst snd]. rewrite app_length. cbn [length]. replace (length (h_pages h) + 1 - 1)%nat with (length (h_pages h)) by lia. rewrite last_last. apply (Grow None). reflexivity.
  - assert (NL : L <> []) by (rewrite EL; discriminate). rewrite <- EL in *. assert (E' : let l := List.last L (0%nat, 0) in h_last h = Some l /\ length (h_pages h) = S (fst l) /\ last_size h = snd l + bsize (c_bucket (h_mem h l))) by (rewrite EL in *; exact E).
    clear E. cbv zeta in E'. destruct E' as (E1 & E2 & E3). rewrite E1. set (la := List.last L (0%nat, 0)) in *.
    assert (Hla : In la L) by now apply last_in. destruct (inv_okc _ _ _ I Hla) as (O1 & O2 & O3 & O4). pose proof (bsize_pos _ O1) as [P1 P2].
    assert (Hls : 0 <= last_size h <= PAGE). { split; [unfold PAGE_HEADER in O2; lia|]. destruct (nth_page h L la I Hla). lia. }
    rewrite Z.mod_small by (unfold PAGE in *; lia). destruct (Z.ltb_spec (PAGE - last_size h) (bsize b)) as [G|G].
    + cbn [fst snd]. rewrite app_length. cbn [length]. replace (length (h_pages h) + 1 - 1)%nat with (length (h_pages h)) by lia. rewrite last_last. apply (Grow (Some la)). destruct L; [congruence|reflexivity].
    + clear Grow. cbn [fst snd]. fold (last_size h). replace (length (h_pages h) - 1)%nat with (fst la) by lia. set (a := (fst la, last_size h) : addr). change (nat * Z)%type with addr in *.
      match goal with |- hinv ?x _ /\ _ => set (h' := x) end.
      assert (Na : ~ In a L) by (apply (not_in_end h L a I NL); [reflexivity|exact E3]).
      assert (Nal : la <> a) by (intros X; apply Na; rewrite <- X; exact Hla).
      assert (Ea : h_mem h' a = mkchunk (0%nat, 0) b false true sh sf d) by apply mset_same.
      assert (El : h_mem h' la = let c := h_mem h la in mkchunk (c_prev c) (c_bucket c) (c_free c) false (c_shadow c) (c_sfree c) (c_data c)) by (unfold h'; cbn [h_mem]; rewrite mset_other by exact Nal; apply mset_same).
      assert (Eo : forall x, x <> a -> x <> la -> h_mem h' x = h_mem h x) by (intros x H1 H2; unfold h'; cbn [h_mem]; now rewrite !mset_other).
      assert (Es : forall x, x <> a -> same_but_last (h_mem h x) (h_mem h' x)).
      { intros x Hx. destruct (addr_dec x la) as [->|Nx]; [rewrite El; repeat split; auto|rewrite Eo by assumption; repeat split; auto]. }
      assert (Pne : h_pages h <> []) by (intros X; rewrite X in E2; discriminate).
      assert (Pn : forall i, (i < length (h_pages h))%nat -> nth i (h_pages h') 0 = if Nat.eqb i (fst la) then last_size h + bsize b else nth i (h_pages h) 0).
      { intros i Hi. unfold h'. cbn [h_pages]. rewrite nth_set_last by assumption. replace (length (h_pages h) - 1)%nat with (fst la) by lia. reflexivity. }
      assert (Oa : okc (h_mem h') (h_pages h') a).
      { unfold okc. rewrite Ea. cbn [c_bucket]. unfold a. cbn [fst snd]. rewrite Pn by lia. rewrite Nat.eqb_refl. split; [exact B1|]. split; [lia|]. split; [|lia].
        rewrite E3. rewrite Z.add_mod, O3, P2 by lia. reflexivity. }
      split; [|rewrite Ea; cbn [c_bucket c_free c_data c_shadow c_sfree]; split; [exact Na|]; do 5 (split; [reflexivity|]); exact Es].
      split.
      * destruct (last_split L (0%nat, 0) NL) as (L1 & EL1). fold la in EL1. rewrite EL1, <- app_assoc. cbn [app].
        assert (ND : NoDup (L1 ++ [la])) by (rewrite <- EL1; apply (inv_nodup _ _ I)).
        assert (Hn1 : forall x, In x L1 -> x <> la). { intros x Hx ->. apply NoDup_remove_2 in ND. rewrite app_nil_r in ND. contradiction. }
        assert (Hne : forall x, In x (L1 ++ [la]) -> x <> a) by (rewrite <- EL1; intros x Hx ->; contradiction).
        refine (walk_snoc (h_mem h) _ (h_pages h) _ L1 la _ a _ _ _ _ _ Oa _).
        -- intros x Hx. apply (Es x). now apply Hne.
        -- intros x Hx. rewrite Eo; [reflexivity| |now apply Hn1]. apply Hne. apply in_or_app. now left.
        -- intros i (x & Hx & <-). assert (Hx' : In x L) by (rewrite EL1; exact Hx). clear Hx. rename Hx' into Hx. destruct (nth_page h _ x I Hx) as [Hp _]. rewrite Pn by exact Hp. destruct (Nat.eqb_spec (fst x) (fst la)) as [Ef|]; [|lia].
           rewrite Ef. replace (fst la) with (length (h_pages h) - 1)%nat by lia. rewrite nth_last. fold (last_size h). lia.
        -- pose proof (i_walk _ _ I) as W. rewrite EL1 in W. exact W.
        -- unfold nxt. rewrite El. cbn [c_last c_bucket]. unfold a. now rewrite E3.
        -- now rewrite Ea.
      * unfold h'. cbn [h_pages]. unfold set_last. apply Forall_app. split; [|constructor; [unfold PAGE_HEADER in *; cbn [snd]; lia|constructor]].
        pose proof (i_page _ _ I) as P. rewrite (app_removelast_last 0 Pne) in P. apply Forall_app in P. apply P.
      * change (nat * Z)%type with addr in *. destruct (L ++ [a]) as [|u v] eqn:El'; [destruct L; discriminate|]. cbv zeta. rewrite <- El'. rewrite last_last. split; [reflexivity|]. unfold h' at 1. cbn [h_pages]. rewrite set_last_len by exact Pne. split; [exact E2|].
        rewrite Ea. unfold last_size at 1, h'. cbn [h_pages]. rewrite last_set by exact Pne. reflexivity.
      * apply (free_keep h h' L a I Na Es); [now rewrite Ea|reflexivity].
Qed.
(** ** the two operations on a heap *)
Definition nonfree (h : heap) (L : list addr) : list addr := filter (fun a => negb (c_free (h_mem h a))) L.
Lemma nonfree_in h L a : In a (nonfree h L) <-> In a L /\ c_free (h_mem h a) = false.
Proof. unfold nonfree. rewrite filter_In, Bool.negb_true_iff. tauto. Qed.
Lemma nonfree_nodup h L : hinv h L -> NoDup (nonfree h L).
Proof. intros I. apply NoDup_filter. apply (inv_nodup _ _ I). Qed.
Lemma take_ok h L size d sh sf : hinv h L -> fits size -> exists h' a L', heap_take h size d sh sf = (h', a) /\
  hinv h' L' /\ Permutation (nonfree h' L') (a :: nonfree h L) /\ CHUNK + size <= bsize (c_bucket (h_mem h' a)) /\
  c_data (h_mem h' a) = d /\ c_shadow (h_mem h' a) = sh /\ c_sfree (h_mem h' a) = sf /\
  (forall x, In x (nonfree h L) -> x <> a /\ same_but_last (h_mem h x) (h_mem h' x)).
Proof.
  intros I F. destruct (fits_bucket size F) as (B1 & B2 & B3). destruct (h_bkt h (bucket_of (CHUNK + size))) as [head count] eqn:Eb.
  destruct (Z.ltb_spec 0 count) as [C|C].
  - destruct (take_free h L size d sh sf head count I Eb C) as (I' & T1 & T2 & T3 & T4 & T5 & T6 & T7 & T8).
    destruct (heap_take h size d sh sf) as [h' a]. cbn [fst snd] in *. exists h', a, L. split; [reflexivity|]. split; [exact I'|]. split; [|split; [now rewrite T3|split; [exact T5|split; [exact T6|split; [exact T7|]]]]].
    + apply NoDup_Permutation; [now apply nonfree_nodup|constructor; [rewrite nonfree_in; intros [_ ?]; congruence|now apply nonfree_nodup]|].
      intros x. cbn [In]. rewrite !nonfree_in. destruct (addr_dec x a) as [->|N]; [tauto|]. rewrite T8 by exact N. intuition congruence.
    + intros x Hx. apply nonfree_in in Hx as [Hx1 Hx2]. assert (x <> a) by congruence. split; [assumption|]. rewrite T8 by assumption. repeat split; auto.
  - destruct (take_bump h L size d sh sf head count I F Eb C) as (I' & T1 & T3 & T4 & T5 & T6 & T7 & T8).
    destruct (heap_take h size d sh sf) as [h' a]. cbn [fst snd] in *. exists h', a, (L ++ [a]). split; [reflexivity|]. split; [exact I'|]. split; [|split; [now rewrite T3|split; [exact T5|split; [exact T6|split; [exact T7|]]]]].
    + apply NoDup_Permutation; [now apply nonfree_nodup|constructor; [rewrite nonfree_in; tauto|now apply nonfree_nodup]|].
      intros x. cbn [In]. rewrite !nonfree_in, in_app_iff. cbn [In]. destruct (addr_dec x a) as [->|N]; [tauto|]. destruct (T8 x N) as (_ & -> & _). intuition congruence.
    + intros x Hx. apply nonfree_in in Hx as [Hx1 Hx2]. assert (x <> a) by (intros ->; contradiction). split; [assumption|now apply T8].
Qed.
Lemma give_ok h L a : hinv h L -> In a (nonfree h L) -> let h' := heap_give h a in
  hinv h' L /\ Permutation (nonfree h L) (a :: nonfree h' L) /\ (forall x, In x (nonfree h' L) -> x <> a /\ h_mem h' x = h_mem h x).
Proof.
  intros I Ha. apply nonfree_in in Ha as [Ha Hf]. cbv zeta. unfold heap_give. set (b := c_bucket (h_mem h a)). destruct (h_bkt h b) as [head count] eqn:Eb.
  match goal with |- hinv ?x _ /\ _ => set (h' := x) end.
  assert (Ea : h_mem h' a = mkchunk head b true (c_last (h_mem h a)) (c_shadow (h_mem h a)) (c_sfree (h_mem h a)) (c_data (h_mem h a))) by apply mset_same.
  assert (Eo : forall x, x <> a -> h_mem h' x = h_mem h x) by (intros x Hx; now apply mset_other).
  assert (Pb : forall x, c_bucket (h_mem h' x) = c_bucket (h_mem h x)) by (intros x; destruct (addr_dec x a) as [->|N]; [now rewrite Ea|now rewrite Eo]).
  assert (Pl : forall x, c_last (h_mem h' x) = c_last (h_mem h x)) by (intros x; destruct (addr_dec x a) as [->|N]; [now rewrite Ea|now rewrite Eo]).
  assert (I' : hinv h' L).
  { split.
    - refine (walk_ext (h_mem h) _ (h_pages h) _ L _ _ _ _ (i_walk _ _ I)); auto. intros i _. cbn. lia.
    - apply (i_page _ _ I).
    - pose proof (i_end _ _ I) as E. destruct L as [|x L]; [destruct Ha|]. cbv zeta in *. rewrite Pb. exact E.
    - intros b'. unfold h' at 2 3. cbn [h_bkt]. destruct (i_free _ _ I b') as (fl & F1 & F2 & F3 & F4). assert (Na : ~ In a fl) by (rewrite F4; intros (_ & ? & _); congruence).
      destruct (Z.eq_dec b' b) as [->|Nb].
      + rewrite bset_same. cbn [fst snd]. rewrite Eb in F1, F2. cbn [fst snd] in F1, F2. exists (a :: fl). split; [|split; [cbn [length]; lia|split; [now constructor|]]].
        * cbn [chain]. split; [reflexivity|]. rewrite Ea. cbn [c_prev]. apply (chain_ext (h_mem h)); [|exact F1]. intros x Hx. rewrite Eo; [reflexivity|congruence].
        * intros x. cbn [In]. rewrite Pb. destruct (addr_dec x a) as [->|N]; [rewrite Ea; cbn [c_free]; tauto|]. rewrite Eo by exact N. rewrite F4. intuition congruence.
      + rewrite bset_other by exact Nb. exists fl. split; [|split; [exact F2|split; [exact F3|]]].
        * apply (chain_ext (h_mem h)); [|exact F1]. intros x Hx. rewrite Eo; [reflexivity|congruence].
        * intros x. rewrite Pb. destruct (addr_dec x a) as [->|N]; [|rewrite Eo by exact N; apply F4]. rewrite Ea. cbn [c_free]. split; [contradiction|]. intros (_ & _ & Hb). exfalso. apply Nb. symmetry. exact Hb. }
  split; [exact I'|]. split.
  - apply NoDup_Permutation; [now apply nonfree_nodup|constructor; [rewrite nonfree_in, Ea; cbn; intros [_ ?]; discriminate|now apply nonfree_nodup]|].
    intros x. cbn [In]. rewrite !nonfree_in. destruct (addr_dec x a) as [->|N]; [tauto|]. rewrite Eo by exact N. intuition congruence.
  - intros x Hx. apply nonfree_in in Hx as [_ Hx]. assert (x <> a) by (intros ->; rewrite Ea in Hx; discriminate). auto.
Qed.
(** the iterator *)
Lemma iterate_from_ok h L : hinv h L -> forall pre l first fuel, pre ++ l = L -> l <> [] -> walk (h_mem h) (h_pages h) l first -> (length l <= fuel)%nat ->
  iterate_from fuel h (Some first) = Some (nonfree h l).
Proof.
  intros I pre l. revert pre. induction l as [|a l IH]; intros pre first fuel E N W Hf; [congruence|]. cbn [walk] in W. destruct W as (-> & O & W).
  destruct fuel as [|fuel]; [cbn in Hf; lia|]. cbn [iterate_from]. cbn [length] in Hf. unfold nonfree. cbn [filter].
  destruct l as [|b l].
  - assert (NL : L <> []) by (rewrite <- E; destruct pre; discriminate). pose proof (i_end _ _ I) as En. destruct L as [|y L]; [congruence|]. cbv zeta in En. rewrite <- E, last_last in En. destruct En as (_ & En & _).
    assert (X : next_chunk h first = None). { unfold next_chunk. rewrite W. cbn [negb]. rewrite En, Nat.leb_refl. reflexivity. }
    rewrite X. destruct fuel; cbn; destruct (c_free (h_mem h first)); reflexivity.
  - assert (X : next_chunk h first = Some (nxt (h_mem h) first)).
    { unfold next_chunk, nxt. destruct (c_last (h_mem h first)) eqn:El; cbn [negb]; [|reflexivity].
      cbn [walk] in W. destruct W as (Hb & _ & _). unfold nxt in Hb. rewrite El in Hb.
      destruct (nth_page h L b I) as [Hp _]; [rewrite <- E; apply in_or_app; right; right; now left|]. rewrite Hb in Hp. cbn [fst] in Hp.
      destruct (Nat.leb_spec (length (h_pages h)) (S (fst first))); [lia|reflexivity]. }
    rewrite X. rewrite (IH (pre ++ [first]) (nxt (h_mem h) first) fuel); [|rewrite <- app_assoc; exact E|discriminate|exact W|cbn [length] in *; lia].
    unfold nonfree. destruct (c_free (h_mem h first)); reflexivity.
Qed.
Lemma iterate_ok h L fuel : hinv h L -> (length L <= fuel)%nat -> iterate fuel h = Some (nonfree h L).
Proof.
  intros I Hf. unfold iterate. pose proof (i_end _ _ I) as E. assert (D : L = [] \/ L <> []) by (destruct L; [now left|right; discriminate]). destruct D as [-> | N].
  - destruct E as [-> _]. destruct fuel; reflexivity.
  - assert (El : exists a, h_last h = Some a) by (destruct L; [congruence|]; cbv zeta in E; destruct E as [E _]; eexists; exact E). destruct El as [a ->].
    apply (iterate_from_ok h L I []); [reflexivity|exact N|apply (i_walk _ _ I)|exact Hf].
Qed.
Lemma iterate_from_more h : forall fuel cur l, iterate_from fuel h cur = Some l -> forall fuel', (fuel <= fuel')%nat -> iterate_from fuel' h cur = Some l.
Proof.
  induction fuel as [|fuel IH]; intros [a|] l H fuel' Hf; cbn [iterate_from] in H; try discriminate.
  - destruct fuel'; exact H.
  - destruct fuel' as [|fuel']; [lia|]. cbn [iterate_from]. destruct (iterate_from fuel h (next_chunk h a)) eqn:E; [|discriminate]. rewrite (IH _ _ E) by lia. exact H.
  - destruct fuel'; exact H.
Qed.
Lemma iterate_some h L fuel l : hinv h L -> iterate fuel h = Some l -> l = nonfree h L.
Proof.
  intros I H. pose proof (iterate_ok h L (fuel + length L) I ltac:(lia)) as H'. unfold iterate in *. rewrite (iterate_from_more _ _ _ _ H (fuel + length L)) in H' by lia. congruence.
Qed.
(** ** the rows of a heap *)
Definition entry := (addr * (bool * data))%type.
Definition dfit (d : data) (b : Z) : Prop := match d with DRow n _ => fits n /\ CHUNK + n <= bsize b | DPtr _ => True end.
Definition entry_ok (h : heap) (flag : bool) (e : entry) : Prop :=
  let c := h_mem h (fst e) in c_shadow c = flag /\ c_sfree c = fst (snd e) /\ c_data c = snd (snd e) /\ dfit (snd (snd e)) (c_bucket c).
Record hok (h : heap) (flag : bool) (L : list addr) (E : list entry) : Prop := mkhok {
  o_inv : hinv h L; o_perm : Permutation (nonfree h L) (map fst E); o_ent : Forall (entry_ok h flag) E }.
Lemma hok_perm h flag L E E' : Permutation E E' -> hok h flag L E -> hok h flag L E'.
Proof.
  intros P [I Q F]. split; [exact I| |].
  - rewrite Q. now apply Permutation_map.
  - apply Forall_forall. intros e He. rewrite Forall_forall in F. apply F. now apply (Permutation_in _ (Permutation_sym P)).
Qed.
Lemma hok_nodup h flag L E : hok h flag L E -> NoDup (map fst E).
Proof. intros [I Q _]. apply (Permutation_NoDup Q). now apply nonfree_nodup. Qed.
Lemma hok_ptr (h : heap) flag L E a : hok h flag L E -> In a (map fst E) -> In a (nonfree h L).
Proof. intros [_ Q _] Ha. now apply (Permutation_in _ (Permutation_sym Q)). Qed.
Lemma entry_same h h' flag e : entry_ok h flag e -> same_but_last (h_mem h (fst e)) (h_mem h' (fst e)) -> entry_ok h' flag e.
Proof. intros (A & B & C & D) (S1 & S2 & S3 & S4 & S5 & S6). unfold entry_ok. cbv zeta. repeat split; try congruence. Qed.
Lemma hok_take h flag L E size d sf : hok h flag L E -> fits size -> (forall b, CHUNK + size <= bsize b -> dfit d b) ->
  exists h' a L', heap_take h size d flag sf = (h', a) /\ hok h' flag L' ((a, (sf, d)) :: E).
Proof.
  intros [I Q F] Fs Fd. destruct (take_ok h L size d flag sf I Fs) as (h' & a & L' & E1 & I' & P & B & D & S & SF & K). exists h', a, L'. split; [exact E1|]. split; [exact I'| |].
  - cbn [map fst]. rewrite P. now constructor.
  - constructor.
    + unfold entry_ok. cbn [fst snd]. repeat split; auto.
    + apply Forall_forall. intros e He. rewrite Forall_forall in F. apply (entry_same h); [now apply F|]. apply K. apply (Permutation_in _ (Permutation_sym Q)). now apply in_map.
Qed.
Lemma hok_give h flag L E a x : hok h flag L ((a, x) :: E) -> hok (heap_give h a) flag L E.
Proof.
  intros [I Q F]. destruct (give_ok h L a I) as (I' & P & K).
  - apply (Permutation_in _ (Permutation_sym Q)). now left.
  - assert (Q' : Permutation (nonfree (heap_give h a) L) (map fst E)) by (apply (Permutation_cons_inv (a := a)); rewrite <- P; exact Q).
    split; [exact I'|exact Q'|]. apply Forall_forall. intros e He. rewrite Forall_forall in F. apply (entry_same h); [apply F; now right|].
    destruct (K (fst e)) as [_ ->]; [apply (Permutation_in _ (Permutation_sym Q')); now apply in_map|]. repeat split; auto.
Qed.
Lemma hok_count h flag L E b : hok h flag L E -> hok (count_add h b) flag L E.
Proof. intros [I Q F]. split; [|exact Q|exact F]. destruct I. split; assumption. Qed.
(** ** the heap with its shadow *)
Definition ent (b : bool) (live : rows) : list entry :=
  map (fun e => (snd (fst e), (false, DRow (fst (snd e)) (snd (snd e))))) (filter (fun e => Bool.eqb (fst (fst e)) b) live).
Definition pcs (l : list (addr * addr)) : list entry := map (fun p => (fst p, (true, DPtr (snd p)))) l.
Definition sinv (x : hs * rows) : Prop :=
  exists Lm dead, hok (main (fst x)) false Lm (ent false (snd x) ++ dead) /\
  match shadow (fst x) with
  | None => shadow_free (fst x) = false /\ dead = [] /\ ent true (snd x) = []
  | Some sh => shadow_free (fst x) = true /\ exists Ls pc, hok sh true Ls (ent true (snd x) ++ pcs pc) /\ map snd pc = map fst dead
  end.
Lemma ptr_eqb_spec p q : Bool.reflect (p = q) (ptr_eqb p q).
Proof.
  destruct p as [b [i o]], q as [b' [i' o']]. unfold ptr_eqb, addr_eqb. cbn [fst snd].
  destruct (Bool.eqb_spec b b') as [->|N]; cbn [andb]; [|constructor; congruence].
  destruct (Nat.eqb_spec i i') as [->|N]; cbn [andb]; [|constructor; congruence].
  destruct (Z.eqb_spec o o') as [->|N]; constructor; congruence.
Qed.
Lemma ent_in b live a x : In (a, x) (ent b live) <-> exists n v, x = (false, DRow n v) /\ In ((b, a), (n, v)) live.
Proof.
  unfold ent. rewrite in_map_iff. split.
  - intros ([[b' a'] [n v]] & E & H). apply filter_In in H as [H Hb]. cbn in *. apply Bool.eqb_prop in Hb as ->. inversion E. subst. eauto.
  - intros (n & v & -> & H). exists ((b, a), (n, v)). split; [reflexivity|]. apply filter_In. cbn. now rewrite Bool.eqb_reflx.
Qed.
Lemma drop_other live a b : ent (negb b) (drop (b, a) live) = ent (negb b) live.
Proof.
  induction live as [|[[b' a'] r] live IH]; [reflexivity|]. unfold drop. cbn [filter fst]. destruct (ptr_eqb_spec (b', a') (b, a)) as [E|N]; cbn [negb].
  - inversion E. subst. unfold ent at 2. cbn [filter fst]. destruct b; cbn; exact IH.
  - unfold ent. cbn [filter fst]. destruct (Bool.eqb b' (negb b)); cbn [map]; [f_equal|]; exact IH.
Qed.
Lemma drop_id live a b : ~ In a (map fst (ent b live)) -> ent b (drop (b, a) live) = ent b live.
Proof.
  induction live as [|[[b' a'] r] live IH]; [reflexivity|]. intros N. unfold drop. cbn [filter fst]. unfold ent in N. cbn [filter fst] in N.
  destruct (ptr_eqb_spec (b', a') (b, a)) as [E|Ne]; cbn [negb].
  - inversion E. subst. rewrite Bool.eqb_reflx in N. cbn in N. tauto.
  - unfold ent. cbn [filter fst]. destruct (Bool.eqb b' b); cbn [map]; [f_equal|]; apply IH; cbn in N; tauto.
Qed.
Lemma drop_perm live a b n v : NoDup (map fst (ent b live)) -> In ((b, a), (n, v)) live ->
  Permutation (ent b live) ((a, (false, DRow n v)) :: ent b (drop (b, a) live)).
Proof.
  induction live as [|[[b' a'] r] live IH]; [intros _ []|]. intros ND H. unfold drop. cbn [filter fst]. unfold ent in ND. cbn [filter fst] in ND.
  destruct (ptr_eqb_spec (b', a') (b, a)) as [E|Ne]; cbn [negb].
  - inversion E. subst. rewrite Bool.eqb_reflx in ND. cbn [map fst snd] in ND. inversion ND as [|? ? Nin ND']. subst. fold (ent b live) in *.
    destruct H as [H|H].
    + inversion H. subst. unfold ent at 1. cbn [filter fst]. rewrite Bool.eqb_reflx. cbn [map fst snd]. fold (ent b live). fold (drop (b, a) live). rewrite drop_id by exact Nin. reflexivity.
    + exfalso. apply Nin. apply in_map_iff. exists (a, (false, DRow n v)). split; [reflexivity|]. apply ent_in. eauto.
  - destruct H as [H|H]; [congruence|]. unfold ent. cbn [filter fst]. fold (drop (b, a) live). destruct (Bool.eqb b' b); cbn [map].
    + inversion ND as [|? ? _ ND']. subst. change (map _ (filter _ live)) with (ent b live). change (map _ (filter _ (drop (b, a) live))) with (ent b (drop (b, a) live)).
      rewrite (IH ND' H). apply perm_swap.
    + apply (IH ND H).
Qed.
(** the end of a snapshot *)
Definition ptrs (sh : heap) (l : list addr) : list addr :=
  flat_map (fun a => match c_sfree (h_mem sh a), c_data (h_mem sh a) with true, DPtr x => [x] | _, _ => [] end) l.
Definition copy_ok (sh : heap) (a : addr) : Prop :=
  (c_sfree (h_mem sh a) = true /\ exists x, c_data (h_mem sh a) = DPtr x) \/ (c_sfree (h_mem sh a) = false /\ exists n v, c_data (h_mem sh a) = DRow n v /\ fits n).
Lemma apply_ok sh : forall l h L R dead, hok h false L (R ++ dead) -> Permutation (map fst dead) (ptrs sh l) -> Forall (copy_ok sh) l ->
  exists h' L' moved, apply_loop (mkhs h None false) sh l = Ok (mkhs h' None false, moved) /\ map fst moved = filter (fun a => negb (c_sfree (h_mem sh a))) l /\
  hok h' false L' (map (fun m => (snd m, (false, c_data (h_mem sh (fst m))))) moved ++ R).
Proof.
  induction l as [|a l IH]; intros h L R dead H P F.
  - cbn in P. apply Permutation_sym, Permutation_nil, map_eq_nil in P as ->. rewrite app_nil_r in H. exists h, L, []. cbn. auto.
  - apply Forall_cons_iff in F as [[[S [x D]]|[S (n & v & D & Fn)]] F]; cbn [apply_loop ptrs flat_map filter] in *; rewrite S, D in *; cbn [negb app] in *.
    + assert (Hx : In x (map fst dead)) by (apply (Permutation_in _ (Permutation_sym P)); now left). apply in_map_iff in Hx as ([x' e] & Ex & Hx). cbn in Ex. subst x'.
      apply in_split in Hx as (d1 & d2 & ->). assert (H' : hok h false L ((x, e) :: R ++ d1 ++ d2)).
      { apply (hok_perm _ _ _ (R ++ d1 ++ (x, e) :: d2)); [|exact H]. rewrite !app_assoc. symmetry. apply Permutation_middle. }
      unfold heap_remove. cbn [bind main shadow shadow_free snd]. pose proof (o_ent _ _ _ _ H') as O. inversion O as [|? ? [O1 _] _]. subst. cbn [fst] in O1. rewrite O1.
      cbn [bind]. apply hok_give in H'. apply (IH (heap_give h x) L R (d1 ++ d2) H'); [|exact F].
      rewrite map_app in P. cbn [map fst] in P. apply (Permutation_cons_inv (a := x)). rewrite map_app. rewrite <- P. apply Permutation_middle.
    + unfold heap_add. cbn [main shadow shadow_free]. destruct (hok_take h false L (R ++ dead) n (DRow n v) false H Fn) as (h1 & y & L1 & E1 & H1); [intros b Hb; split; assumption|].
      rewrite E1. cbn [snd bind]. apply (hok_count _ _ _ _ (bucket_of (CHUNK + n))) in H1. change ((y, (false, DRow n v)) :: R ++ dead) with (((y, (false, DRow n v)) :: R) ++ dead) in H1.
      destruct (IH _ _ _ _ H1 P F) as (h' & L' & moved & -> & M & H'). exists h', L', ((a, y) :: moved). cbn [bind map fst snd]. rewrite D, M. split; [reflexivity|]. split; [reflexivity|].
      apply (hok_perm _ _ _ (map (fun m => (snd m, (false, c_data (h_mem sh (fst m))))) moved ++ (y, (false, DRow n v)) :: R)); [|exact H']. cbn [app]. symmetry. apply Permutation_middle.
Qed.
Lemma lookup_in moved : NoDup (map fst moved) -> forall m, In m moved -> lookup (fst m) moved = snd m.
Proof.
  induction moved as [|[x y] moved IH]; intros ND m Hm; [destruct Hm|]. cbn [map fst] in ND. inversion ND as [|? ? N ND']. subst. cbn [lookup].
  assert (A : forall p q : addr, Bool.reflect (p = q) (addr_eqb p q)).
  { intros [i o] [i' o']. unfold addr_eqb. cbn [fst snd]. destruct (Nat.eqb_spec i i') as [->|]; cbn [andb]; [|constructor; congruence]. destruct (Z.eqb_spec o o') as [->|]; constructor; congruence. }
  destruct (A x (fst m)) as [->|Ne].
  - destruct Hm as [<-|Hm]; [reflexivity|]. exfalso. apply N. now apply in_map.
  - destruct Hm as [<-|Hm]; [exfalso; apply Ne; reflexivity|]. now apply IH.
Qed.
Lemma ent_relocate moved live : Permutation (ent false (relocate moved live)) (map (fun e : entry => (lookup (fst e) moved, snd e)) (ent true live) ++ ent false live).
Proof.
  induction live as [|[[b a] [n v]] live IH]; [reflexivity|]. unfold relocate, ent. cbn [map filter fst snd]. destruct b; cbn [Bool.eqb fst snd map filter].
  - cbn [app]. constructor. exact IH.
  - apply Permutation_cons_app. exact IH.
Qed.
Lemma ent_relocate_true moved live : ent true (relocate moved live) = [].
Proof. induction live as [|[[b a] [n v]] live IH]; [reflexivity|]. unfold relocate, ent. cbn [map filter fst snd]. destruct b; cbn [Bool.eqb fst snd map filter]; exact IH. Qed.
Lemma app_nil_inv {A} (l : list A) : l ++ [] = l. Proof. apply app_nil_r. Qed.
Lemma filter_perm {A} (f : A -> bool) l l' : Permutation l l' -> Permutation (filter f l) (filter f l').
Proof.
  induction 1; cbn; [constructor| | |etransitivity; eassumption].
  - destruct (f x); [now constructor|assumption].
  - destruct (f x), (f y); try reflexivity. apply perm_swap.
Qed.
Lemma filter_all {A} (f : A -> bool) l : (forall x, In x l -> f x = true) -> filter f l = l.
Proof. induction l as [|x l IH]; intros H; [reflexivity|]. cbn. rewrite (H x) by now left. f_equal. apply IH. intros y Hy. apply H. now right. Qed.
Lemma filter_none {A} (f : A -> bool) l : (forall x, In x l -> f x = false) -> filter f l = [].
Proof. induction l as [|x l IH]; intros H; [reflexivity|]. cbn. rewrite (H x) by now left. apply IH. intros y Hy. apply H. now right. Qed.
Lemma flat_none {A B} (f : A -> list B) l : (forall x, In x l -> f x = []) -> flat_map f l = [].
Proof. induction l as [|x l IH]; intros H; [reflexivity|]. cbn. rewrite (H x) by now left. apply IH. intros y Hy. apply H. now right. Qed.
Lemma step_add s live size v : sinv (s, live) -> fits size -> exists z, step (s, live) (Add size v) = Ok z /\ sinv z.
Proof.
  intros (Lm & dead & Hm & Hs) F. cbn [fst snd] in *. cbn [step]. unfold heap_add. assert (Fd : forall b, CHUNK + size <= bsize b -> dfit (DRow size v) b) by (intros b Hb; split; assumption).
  destruct (shadow s) as [sh|] eqn:Es.
  - destruct Hs as (Sf & Ls & pc & Hs & Hd). destruct (hok_take _ _ _ _ size (DRow size v) false Hs F Fd) as (h' & a & L' & -> & H'). eexists. split; [reflexivity|].
    exists Lm, dead. cbn [fst snd main shadow shadow_free]. split; [exact (hok_count _ _ _ _ _ Hm)|]. split; [exact Sf|]. exists L', pc. split; [exact H'|exact Hd].
  - destruct Hs as (Sf & -> & Et). rewrite app_nil_r in Hm. destruct (hok_take _ _ _ _ size (DRow size v) false Hm F Fd) as (h' & a & L' & -> & H'). eexists. split; [reflexivity|].
    exists L', []. cbn [fst snd main shadow shadow_free]. rewrite app_nil_r. split; [apply hok_count; exact H'|]. split; [exact Sf|]. split; [reflexivity|exact Et].
Qed.
Lemma nodup_l {A} (l r : list A) : NoDup (l ++ r) -> NoDup l.
Proof. induction l as [|x l IH]; intros H; [constructor|]. cbn in H. inversion H as [|? ? N H']. subst. constructor; [intros Hx; apply N; apply in_or_app; now left|now apply IH]. Qed.
Lemma step_remove s live p : sinv (s, live) -> In p (map fst live) -> exists z, step (s, live) (Remove p) = Ok z /\ sinv z.
Proof.
  intros (Lm & dead & Hm & Hs) Hp. cbn [fst snd] in *. cbn [step]. apply in_map_iff in Hp as ([[b a] [n v]] & <- & Hp). cbn [fst].
  assert (NDm : NoDup (map fst (ent false live))) by (apply hok_nodup in Hm; rewrite map_app in Hm; now apply nodup_l in Hm).
  unfold heap_remove. cbn [snd]. destruct b.
  - destruct (shadow s) as [sh|] eqn:Es.
    + destruct Hs as (Sf & Ls & pc & Hs & Hd). cbn [bind].
      assert (NDs : NoDup (map fst (ent true live))) by (apply hok_nodup in Hs; rewrite map_app in Hs; now apply nodup_l in Hs).
      pose proof (drop_perm live a true n v NDs Hp) as P.
      apply (hok_perm _ _ _ _ _ (Permutation_app_tail (pcs pc) P)) in Hs. cbn [app] in Hs.
      pose proof (o_ent _ _ _ _ Hs) as O. inversion O as [|? ? [O1 _] _]. subst. cbn [fst] in O1. rewrite O1.
      eexists. split; [reflexivity|]. exists Lm, dead. cbn [fst snd main shadow shadow_free]. change (ent false (drop (true, a) live)) with (ent (negb true) (drop (true, a) live)); rewrite (drop_other live a true). split; [exact Hm|]. split; [exact Sf|]. exists Ls, pc. split; [exact (hok_give _ _ _ _ _ _ Hs)|exact Hd].
    + exfalso. destruct Hs as (_ & _ & Et). assert (X : In (a, (false, DRow n v)) (ent true live)) by (apply ent_in; eauto). rewrite Et in X. destruct X.
  - cbn [bind]. pose proof (drop_perm live a false n v NDm Hp) as P.
    apply (hok_perm _ _ _ _ _ (Permutation_app_tail dead P)) in Hm. cbn [app] in Hm.
    pose proof (o_ent _ _ _ _ Hm) as O. inversion O as [|? ? [O1 _] _]. subst. cbn [fst] in O1. rewrite O1.
    destruct (shadow s) as [sh|] eqn:Es.
    + destruct Hs as (Sf & Ls & pc & Hs & Hd). rewrite Sf.
      destruct (hok_take _ _ _ _ 8 (DPtr a) true Hs) as (h' & c & L' & -> & H'); [unfold fits; lia|intros; exact Logic.I|].
      eexists. split; [reflexivity|]. exists Lm, ((a, (false, DRow n v)) :: dead). cbn [fst snd main shadow shadow_free]. split; [|split; [reflexivity|]].
      * apply (hok_perm _ _ _ ((a, (false, DRow n v)) :: ent false (drop (false, a) live) ++ dead)); [apply Permutation_middle|exact Hm].
      * exists L', ((c, a) :: pc). change (ent true (drop (false, a) live)) with (ent (negb false) (drop (false, a) live)); rewrite (drop_other live a false). split; [|cbn [map fst snd]; now f_equal]. apply hok_count.
        apply (hok_perm _ _ _ ((c, (true, DPtr a)) :: ent true live ++ pcs pc)); [|exact H']. unfold pcs. cbn [map fst snd]. apply Permutation_middle.
    + destruct Hs as (Sf & -> & Et). rewrite Sf. eexists. split; [reflexivity|]. exists Lm, []. cbn [fst snd main shadow shadow_free]. change (ent true (drop (false, a) live)) with (ent (negb false) (drop (false, a) live)); rewrite (drop_other live a false).
      split; [exact (hok_give _ _ _ _ _ _ Hm)|]. split; [first [exact Sf|reflexivity]|]. split; [reflexivity|exact Et].
Qed.
Lemma step_begin s live : sinv (s, live) -> shadow s = None -> exists z, step (s, live) Begin = Ok z /\ sinv z.
Proof.
  intros (Lm & dead & Hm & Hs) E. cbn [fst snd] in *. rewrite E in Hs. destruct Hs as (Sf & -> & Et). eexists. split; [reflexivity|].
  exists Lm, []. cbn [fst snd heap_snapshot main shadow shadow_free]. split; [exact Hm|]. split; [reflexivity|]. exists [], []. rewrite Et. cbn. split; [|reflexivity]. split; [apply inv_init|reflexivity|constructor].
Qed.
Lemma step_end s live fuel : sinv (s, live) -> shadow s <> None ->
  (step (s, live) (End fuel) = Err \/ exists z, step (s, live) (End fuel) = Ok z /\ sinv z /\ shadow (fst z) = None) /\
  exists k, ((k <= fuel)%nat -> step (s, live) (End fuel) <> Err).
Proof.
  intros (Lm & dead & Hm & Hs) E. cbn [fst snd] in *. destruct (shadow s) as [sh|] eqn:Es; [clear E|congruence]. destruct Hs as (Sf & Ls & pc & Hs & Hd).
  cbn [step]. unfold refresh_apply. rewrite Es. destruct (iterate fuel sh) as [l|] eqn:Ei.
  2:{ split; [now left|]. exists (length Ls). intros Hf. rewrite (iterate_ok sh Ls fuel (o_inv _ _ _ _ Hs) Hf) in Ei. discriminate. }
  apply (iterate_some _ _ _ _ (o_inv _ _ _ _ Hs)) in Ei. subst l. pose proof (o_perm _ _ _ _ Hs) as P. pose proof (o_ent _ _ _ _ Hs) as O. rewrite Forall_forall in O.
  assert (K1 : forall e, In e (ent true live) -> c_sfree (h_mem sh (fst e)) = false /\ exists n v, c_data (h_mem sh (fst e)) = DRow n v /\ fits n /\ snd e = (false, DRow n v)).
  { intros [a x] He. pose proof He as He'. apply ent_in in He' as (n & v & -> & _). destruct (O (a, (false, DRow n v))) as (_ & O2 & O3 & O4); [apply in_or_app; now left|]. cbn [fst snd] in *. destruct O4 as [O4 _]. eauto 8. }
  assert (K2 : forall p, In p pc -> c_sfree (h_mem sh (fst p)) = true /\ c_data (h_mem sh (fst p)) = DPtr (snd p)).
  { intros p Hp. destruct (O (fst p, (true, DPtr (snd p)))) as (_ & O2 & O3 & _); [apply in_or_app; right; apply in_map_iff; eauto|]. auto. }
  rewrite map_app in P. unfold pcs in P. rewrite map_map in P. cbn [fst] in P.
  destruct (apply_ok sh (nonfree sh Ls) (main s) Lm (ent false live) dead Hm) as (h' & L' & moved & Ea & M & H').
  - unfold ptrs. rewrite (Permutation_flat_map _ P). rewrite flat_map_app. rewrite flat_none.
    + cbn [app]. rewrite <- Hd. clear - K2. induction pc as [|p pc IH]; [reflexivity|]. cbn [map flat_map]. destruct (K2 p) as [-> ->]; [now left|]. cbn [app]. constructor. apply IH. intros q Hq. apply K2. now right.
    + intros x Hx. apply in_map_iff in Hx as (e & <- & He). destruct (K1 e He) as (-> & _). reflexivity.
  - apply Forall_forall. intros a Ha. apply (Permutation_in _ P) in Ha. apply in_app_iff in Ha as [Ha|Ha]; apply in_map_iff in Ha as (e & <- & He).
    + right. destruct (K1 e He) as (? & n & v & ? & ? & _). eauto.
    + left. destruct (K2 e He). eauto.
  - unfold heap_snapshot. rewrite Ea. cbn [bind]. split; [|exists 0%nat; discriminate]. right. eexists. split; [reflexivity|]. split; [|reflexivity].
    assert (PM : Permutation (map fst moved) (map fst (ent true live))).
    { rewrite M. rewrite (filter_perm _ _ _ P), filter_app, filter_all, filter_none, app_nil_r; [reflexivity| |].
      - intros x Hx. apply in_map_iff in Hx as (e & <- & He). destruct (K2 e He) as [-> _]. reflexivity.
      - intros x Hx. apply in_map_iff in Hx as (e & <- & He). destruct (K1 e He) as [-> _]. reflexivity. }
    assert (NDk : NoDup (map fst moved)) by (apply (Permutation_NoDup (Permutation_sym PM)); apply hok_nodup in Hs; rewrite map_app in Hs; now apply nodup_l in Hs).
    exists L', []. cbn [fst snd main shadow shadow_free]. rewrite app_nil_r, ent_relocate_true. split; [|auto].
    refine (hok_perm _ _ _ _ _ _ H'). symmetry. rewrite ent_relocate. apply Permutation_app_tail.
    set (g := fun k : addr => (lookup k moved, (false, c_data (h_mem sh k))) : entry).
    assert (X1 : map (fun e : entry => (lookup (fst e) moved, snd e)) (ent true live) = map g (map fst (ent true live))).
    { rewrite map_map. apply map_ext_in. intros e He. destruct (K1 e He) as (_ & n & v & D & _ & Ev). unfold g. rewrite D, Ev. reflexivity. }
    assert (X2 : map (fun m : addr * addr => (snd m, (false, c_data (h_mem sh (fst m))))) moved = map g (map fst moved)).
    { rewrite map_map. apply map_ext_in. intros m Hm'. unfold g. rewrite (lookup_in moved NDk m Hm'). reflexivity. }
    rewrite X1. change entry with (addr * (bool * data))%type in *. rewrite X2. apply Permutation_map. symmetry. exact PM.
Qed.
Lemma sinv_start : sinv start.
Proof. exists [], []. cbn. split; [split; [apply inv_init|reflexivity|constructor]|auto]. Qed.
Lemma step_inv x o z : sinv x -> valid x o -> step x o = Ok z -> sinv z.
Proof.
  destruct x as [s live]. intros I V E. destruct o as [size v|p| |fuel]; cbn [valid fst snd] in V.
  - destruct (step_add s live size v I V) as (z' & E' & I'). congruence.
  - destruct (step_remove s live p I V) as (z' & E' & I'). congruence.
  - destruct (step_begin s live I V) as (z' & E' & I'). congruence.
  - destruct (step_end s live fuel I V) as [[E'|(z' & E' & I' & _)] _]; congruence.
Qed.
Lemma reach_inv x y : sinv x -> reach x y -> sinv y.
Proof. intros I H. induction H as [|y o z H IH V E]; [exact I|]. exact (step_inv _ _ _ IH V E). Qed.
