(** Proofs about the scanner of SQL texts. *)
From Coq Require Import Ascii String.
From Verif Require Import Base DecLib Utf8Model Utf8Spec Utf8Proofs JsonModel JsonTextModel JsonTextProofs TimeModel LexModel LexSpec.
Local Open Scope Z_scope.
Notation length := List.length.

(** ** gaps *)
Definition head_ok (s : list Z) : Prop :=
  match s with [] => True | b :: r => is_space b = false /\ ~ (b = 45 /\ exists r', r = 45 :: r') end.
Lemma space_in b : is_space b = true <-> In b [32; 9; 10; 11; 12; 13].
Proof. unfold is_space. cbn [In]. lia. Qed.
Lemma skip_head f s : head_ok s -> skip_gap f s = s.
Proof.
  intros H. destruct f; [reflexivity|]. cbn [skip_gap]. destruct s as [|b r]; [reflexivity|]. destruct H as [H1 H2].
  cbn [skip_ws]. rewrite H1. destruct r as [|c r]; [reflexivity|]. destruct (Z.eqb_spec b 45) as [->|N]; [|reflexivity].
  destruct (Z.eqb_spec c 45) as [->|N]; [|reflexivity]. exfalso. apply H2. split; [reflexivity|]. exists r. reflexivity.
Qed.
Lemma skip_space f b s : is_space b = true -> skip_gap (S f) (b :: s) = skip_gap (S f) s.
Proof. intros H. cbn [skip_gap skip_ws]. now rewrite H. Qed.
Lemma skip_comment f s : skip_gap (S f) (45 :: 45 :: s) = skip_gap f (skip_line s).
Proof. reflexivity. Qed.
Lemma skip_line_app c s : ~ In 10 c -> skip_line (c ++ s) = skip_line s.
Proof.
  induction c as [|b c IH]; intros H; [reflexivity|]. cbn [app skip_line]. destruct (Z.eqb_spec b 10) as [->|N]; [exfalso; apply H; now left|]. apply IH. intros I. apply H. now right.
Qed.
Lemma skip_gap_app g : gap g -> forall f s, (length g < f)%nat -> exists f', (f' <= f)%nat /\ (f - f' <= length g)%nat /\ skip_gap f (g ++ s) = skip_gap f' s.
Proof.
  induction 1 as [|b g I _ IH|c g N _ IH]; intros f s L.
  - exists f. cbn. repeat split; lia.
  - destruct f as [|f]; [lia|]. cbn [app]. rewrite skip_space by now apply space_in. cbn [length] in L.
    destruct (IH (S f) s ltac:(lia)) as (f' & A & B & E). exists f'. cbn [length]. repeat split; try lia. exact E.
  - destruct f as [|f]; [lia|]. cbn [app]. rewrite <- app_assoc. rewrite skip_comment, skip_line_app by exact N. cbn [app skip_line]. rewrite Z.eqb_refl.
    cbn [length] in L. rewrite app_length in L. cbn [length] in L. destruct f as [|f]; [lia|]. rewrite skip_space by reflexivity.
    destruct (IH (S f) s ltac:(lia)) as (f' & A & B & E). exists f'. cbn [length]. rewrite app_length. cbn [length]. repeat split; try lia. exact E.
Qed.
Lemma skip_gap_ok g f s : gap g -> (length g < f)%nat -> head_ok s -> skip_gap f (g ++ s) = s.
Proof. intros G L H. destruct (skip_gap_app g G f s L) as (f' & _ & _ & ->). now apply skip_head. Qed.
Lemma skip_gap_end s f : gap_end s -> (length s < f)%nat -> skip_gap f s = [].
Proof.
  intros [G|(g & c & -> & G & N)] L.
  - rewrite <- (app_nil_r s). apply skip_gap_ok; [exact G|exact L|exact I].
  - rewrite app_length in L. cbn [length] in L. destruct (skip_gap_app g G f (45 :: 45 :: c) ltac:(lia)) as (f' & A & B & ->).
    destruct f' as [|f']; [lia|]. rewrite skip_comment, <- (app_nil_r c), skip_line_app by exact N. cbn [skip_line]. now apply skip_head.
Qed.
Lemma skip_line_inv s : exists c, ~ In 10 c /\ s = c ++ skip_line s /\ (skip_line s = [] \/ exists r, skip_line s = 10 :: r).
Proof.
  induction s as [|b s (c & N & E & T)]; [exists []; cbn; auto|]. cbn [skip_line]. destruct (Z.eqb_spec b 10) as [->|M].
  - exists []. split; [intros []|]. split; [reflexivity|]. right. exists s. reflexivity.
  - exists (b :: c). split; [intros [H|H]; [now apply M|contradiction]|]. split; [cbn [app]; now f_equal|exact T].
Qed.
Lemma skip_ws_inv s : exists g, gap g /\ s = g ++ skip_ws s /\ (match skip_ws s with [] => True | b :: _ => is_space b = false end).
Proof.
  induction s as [|b s (g & G & E & T)]; [exists []; repeat split; constructor|]. cbn [skip_ws]. destruct (is_space b) eqn:Sp.
  - exists (b :: g). split; [constructor; [now apply space_in|exact G]|]. split; [cbn [app]; now f_equal|exact T].
  - exists []. repeat split; [constructor|exact Sp].
Qed.
Lemma gap_app a b : gap a -> gap b -> gap (a ++ b).
Proof.
  induction 1 as [|x a I _ IH|c a N _ IH]; intros B; [exact B|constructor; auto|]. cbn [app]. rewrite <- app_assoc. cbn [app]. apply gap_comment; auto.
Qed.
Lemma skip_gap_inv f : forall s, (length s < f)%nat ->
  (skip_gap f s = [] /\ gap_end s) \/ (exists g, s = g ++ skip_gap f s /\ gap g /\ skip_gap f s <> [] /\ head_ok (skip_gap f s)).
Proof.
  induction f as [|f IH]; intros s L; [lia|]. destruct (skip_ws_inv s) as (g & G & E & T). cbn [skip_gap]. cbv zeta.
  remember (skip_ws s) as w eqn:Ew. clear Ew. destruct w as [|b w].
  { left. split; [reflexivity|]. left. rewrite E, app_nil_r. exact G. }
  destruct w as [|c w].
  { right. exists g. repeat split; [exact E|exact G|discriminate|exact T|]. intros (_ & r' & ?). discriminate. }
  destruct ((b =? 45) && (c =? 45)) eqn:C.
  - apply andb_prop in C as [C1 C2]. apply Z.eqb_eq in C1, C2. subst b c. destruct (skip_line_inv w) as (cm & N & Ec & [Es|(r & Es)]).
    + left. cbn [skip_line]. change (45 =? 10) with false. cbv iota. rewrite Es. rewrite Es, app_nil_r in Ec. subst w. split; [destruct f; reflexivity|]. right. exists g, cm. auto.
    + cbn [skip_line]. change (45 =? 10) with false. cbv iota. rewrite Es. assert (L2 : (length (10 :: r)%Z < f)%nat).
      { rewrite E, app_length in L. cbn [length] in L. rewrite Ec, Es, app_length in L. cbn [length] in L |- *. lia. }
      destruct f as [|f]; [lia|]. assert (Sk : forall x, skip_gap (S f) (10 :: x) = skip_gap (S f) x) by (intros; now apply skip_space).
      destruct (IH (10 :: r) L2) as [[A B]|(g2 & A & B & C & D)].
      * left. split; [exact A|]. destruct B as [B|(g3 & c3 & B1 & B2 & B3)].
        -- left. rewrite E, Ec, Es. apply gap_app; [exact G|]. inversion B; subst; apply gap_comment; assumption.
        -- right. rewrite E, Ec, Es, B1. exists (g ++ 45 :: 45 :: cm ++ g3), c3. split; [now repeat (rewrite <- ?app_assoc; cbn [app])|]. split; [|exact B3]. apply gap_app; [exact G|].
           destruct g3 as [|x g3]; [discriminate|]. injection B1 as <- B1. inversion B2; subst. constructor; assumption.
      * right. exists (g ++ 45 :: 45 :: cm ++ g2). split; [rewrite E at 1; rewrite Ec, Es, A at 1; now repeat (rewrite <- ?app_assoc; cbn [app])|]. split; [|split; assumption].
        apply gap_app; [exact G|]. destruct g2 as [|x g2].
        -- exfalso. cbn [app] in A. rewrite <- A in D. destruct D as [D _]. discriminate D.
        -- injection A as <- A. inversion B; subst; apply gap_comment; assumption.
  - right. exists g. repeat split; [exact E|exact G|discriminate|exact T|]. intros (-> & r' & Er). injection Er as -> ->. discriminate C.
Qed.

(** ** words at the position *)
Section Word.
Variable sd : list Z -> option (Z * list Z).
Definition word (kw : bool) (s : list Z) : res (tok * list Z * list Z) :=
  match s with
  | [] => Ok (TEof, [], [])
  | b :: s' =>
    if is_digit b then do (t, r) <- lex_number sd s; Ok (t, s, r)
    else if is_punct b && negb (b =? 34) && negb (b =? 39) && negb (b =? 96) && negb (b =? 95) then
      match s' with
      | [] => Ok (TSym b, s, [])
      | c :: s'' => match symbols b c with Some o => Ok (TOp o, s, s'') | None => Ok (TSym b, s, s') end
      end
    else if is_alpha b || (b =? 95) then do (t, r) <- lex_name kw false s; Ok (t, s, r)
    else if b =? 96 then do (t, r) <- lex_name kw true s'; Ok (t, s, r)
    else if (b =? 34) || (b =? 39) then
      do (e, r) <- lex_string (S (length s')) b false false s';
      Ok (TString (firstn (length s' - length r) s') e, s, tl r)
    else Err
  end.
Lemma next_word kw text : lex_next sd kw text = word kw (skip_gap (S (length text)) text).
Proof. reflexivity. Qed.
Lemma next_gap kw g s : gap g -> head_ok s -> lex_next sd kw (g ++ s) = word kw s.
Proof. intros G H. rewrite next_word, skip_gap_ok; [reflexivity|exact G|rewrite app_length; lia|exact H]. Qed.

End Word.

(** *** numbers *)
Lemma digits_bool ds : digits_text ds <-> forallb is_digit ds = true.
Proof.
  unfold digits_text. rewrite forallb_forall, Forall_forall. unfold digit, is_digit. split; intros H x I; specialize (H x I); lia.
Qed.
Lemma first_digits_app ds s : digits_text ds -> (match s with [] => True | b :: _ => ~ digit b end) -> first_digits (ds ++ s) = ds.
Proof.
  unfold digits_text. induction 1 as [|d ds D _ IH]; intros N.
  - cbn [app]. destruct s as [|b s]; [reflexivity|]. cbn [first_digits]. unfold digit in N. destruct ((48 <=? b) && (b <=? 57)) eqn:E; [exfalso; lia|reflexivity].
  - cbn [app first_digits]. unfold digit in D. replace ((48 <=? d) && (d <=? 57)) with true by lia. now rewrite IH.
Qed.
Lemma int_loop_real ds : forall v c rest, 0 <= v -> forallb is_digit ds = true -> fold_left (fun a b => a * 10 + (b - 48)) ds v <= INT64_MAX -> c = 46 \/ c = 101 \/ c = 69 ->
  int_loop v (ds ++ c :: rest) = Ok (inr tt).
Proof.
  induction ds as [|d ds IH]; intros v c rest V D B C.
  - cbn [app int_loop]. replace ((c =? 46) || (c =? 101) || (c =? 69)) with true by lia. reflexivity.
  - cbn [app forallb fold_left int_loop] in *. apply andb_prop in D as [D1 D2]. rewrite D1. unfold is_digit in D1.
    replace ((d =? 46) || (d =? 101) || (d =? 69)) with false by lia. cbn [negb].
    assert (M : forall l a, 0 <= a -> forallb is_digit l = true -> a <= fold_left (fun a b => a * 10 + (b - 48)) l a).
    { clear. induction l as [|x l IH]; intros a A F; [cbn; lia|]. cbn [fold_left forallb] in *. apply andb_prop in F as [F1 F2]. unfold is_digit in F1. specialize (IH (a * 10 + (x - 48)) ltac:(lia) F2). lia. }
    specialize (M ds (v * 10 + (d - 48)) ltac:(lia) D2). unfold mul_add64, in64. unfold INT64_MAX in *.
    replace (_ && _) with true by lia. cbn [bind]. apply IH; try assumption; lia.
Qed.

(** *** keywords *)
Definition kw_name (k : nat) : list Z := text_of (fst (nth k keywords (""%string, O))).
Fixpoint low_match (ref : Z) (w : list Z) (k : nat) (l : list (list Z)) : option nat :=
  match l with
  | (c :: n) :: l' => if negb (c =? ref) then None else if bytes_eqb w (c :: n) then Some k else low_match ref w (S k) l'
  | _ => None
  end.
Definition low_names : list (list Z) := map (fun x => text_of (fst x)) keywords.
Lemma match_low ref w l : forallb (fun x => Nat.eqb (length (text_of (fst x))) (snd x)) l = true -> forall k,
  match_from ref w k l = low_match ref (map lower w) k (map (fun x => text_of (fst x)) l).
Proof.
  induction l as [|[kw n] l IH]; intros H k; [reflexivity|]. cbn [forallb fst snd] in H. apply andb_prop in H as [H1 H2]. apply Nat.eqb_eq in H1.
  cbn [match_from map low_match fst]. destruct (text_of kw) as [|c t] eqn:T; [reflexivity|]. destruct (c =? ref); cbn [negb]; [|reflexivity].
  replace (Nat.eqb (length w) n && bytes_eqb (map lower (firstn n w)) (firstn n (c :: t))) with (bytes_eqb (map lower w) (c :: t)).
  - now rewrite IH.
  - rewrite <- H1, firstn_all. destruct (Nat.eqb_spec (length w) (length (c :: t))) as [E|E]; cbn [andb].
    + now rewrite <- E, firstn_all.
    + destruct (bytes_eqb (map lower w) (c :: t)) eqn:B; [|reflexivity]. exfalso. apply E. apply bytes_eqb_eq in B. now rewrite <- B, map_length.
Qed.
Lemma sizes_ok : forallb (fun x => Nat.eqb (length (text_of (fst x))) (snd x)) keywords = true.
Proof. vm_compute. reflexivity. Qed.
Lemma low_sound ref w l : forall k j, low_match ref w k l = Some j -> exists i, j = (k + i)%nat /\ nth_error l i = Some w.
Proof.
  induction l as [|n l IH]; intros k j H; [discriminate|]. cbn [low_match] in H. destruct n as [|c n]; [discriminate|].
  destruct (c =? ref); cbn [negb] in H; [|discriminate]. destruct (bytes_eqb w (c :: n)) eqn:B.
  - injection H as <-. apply bytes_eqb_eq in B. exists 0%nat. split; [lia|]. cbn. now rewrite B.
  - apply IH in H as (i & -> & E). exists (S i). split; [lia|exact E].
Qed.
Definition low_find (w : list Z) : option nat :=
  match w with
  | [] => None
  | c :: _ => match nth_error keywords_alpha (Z.to_nat (c - 97)) with Some (Some k) => low_match c w k (skipn k low_names) | _ => None end
  end.
Lemma forallb_skipn {A} (f : A -> bool) n l : forallb f l = true -> forallb f (skipn n l) = true.
Proof. revert l. induction n as [|n IH]; intros [|x l] H; try assumption; cbn in H. apply andb_prop in H as [_ H]. now apply IH. Qed.
Lemma find_low c w : is_alpha c = true -> keyword_match (c :: w) = Ok (low_find (map lower (c :: w))).
Proof.
  intros A. unfold keyword_match, low_find. cbn [map].
  assert (R : (Z.to_nat (lower c - 97) < 26)%nat) by (unfold is_alpha, lower in *; destruct ((65 <=? c) && (c <=? 90)) eqn:E; lia).
  destruct (nth_error keywords_alpha (Z.to_nat (lower c - 97))) as [[k|]|] eqn:E; [|reflexivity|].
  - rewrite match_low by (apply forallb_skipn, sizes_ok). unfold low_names. now rewrite skipn_map.
  - exfalso. apply nth_error_None in E. cbn [length] in E. unfold keywords_alpha in E. cbn [length] in E. lia.
Qed.
Lemma all_found : forallb (fun k => match nth_error low_names k with
  Some w => match low_find w with Some j => Nat.eqb j k | None => false end | None => false end) (seq 0 143) = true.
Proof. vm_compute. reflexivity. Qed.
Lemma names_len : length low_names = 143%nat.
Proof. reflexivity. Qed.
Lemma found k w : nth_error low_names k = Some w -> low_find w = Some k.
Proof.
  intros H. assert (L : (k < 143)%nat) by (rewrite <- names_len; apply nth_error_Some; congruence).
  pose proof all_found as F. rewrite forallb_forall in F. specialize (F k ltac:(apply in_seq; lia)). rewrite H in F.
  destruct (low_find w) as [j|]; [|discriminate]. apply Nat.eqb_eq in F. now subst.
Qed.
Lemma nth_error_skipn {A} n : forall (l : list A) i, nth_error (skipn n l) i = nth_error l (n + i).
Proof. induction n as [|n IH]; intros [|x l] i; try reflexivity; [destruct i; reflexivity|]. cbn. apply IH. Qed.
Lemma found_inv k w : low_find w = Some k -> nth_error low_names k = Some w.
Proof.
  unfold low_find. destruct w as [|c w]; [discriminate|]. destruct (nth_error keywords_alpha (Z.to_nat (c - 97))) as [[k0|]|]; try discriminate.
  intros H. apply low_sound in H as (i & -> & E). now rewrite nth_error_skipn in E.
Qed.
Definition names_text : list (list Z) := map (fun s => map (fun c => Z.of_nat (nat_of_ascii c)) (list_ascii_of_string s)) sql_keywords.
Lemma names_low : map (map lower) names_text = low_names.
Proof. vm_compute. reflexivity. Qed.
Lemma names_up : map (map upper) low_names = names_text.
Proof. vm_compute. reflexivity. Qed.
Lemma lower_upper b : lower (upper b) = lower b.
Proof. unfold lower, upper. repeat match goal with |- context[if ?c then _ else _] => destruct c eqn:? end; lia. Qed.
Lemma upper_lower b : upper (lower b) = upper b.
Proof. unfold lower, upper. repeat match goal with |- context[if ?c then _ else _] => destruct c eqn:? end; lia. Qed.
Lemma keyword_low k w : keyword k w <-> nth_error low_names k = Some (map lower w).
Proof.
  unfold keyword. split.
  - intros (name & Hn & E). rewrite <- names_low, nth_error_map. unfold names_text. rewrite nth_error_map, Hn. cbn [option_map]. rewrite <- E, map_map.
    f_equal. apply map_ext. intros b. apply lower_upper.
  - intros H. assert (U : nth_error names_text k = Some (map upper (map lower w))) by (rewrite <- names_up, nth_error_map, H; reflexivity).
    unfold names_text in U. rewrite nth_error_map in U. destruct (nth_error sql_keywords k) as [name|] eqn:En; [|discriminate]. cbn [option_map] in U.
    exists name. split; [reflexivity|]. injection U as ->. rewrite map_map. apply map_ext. intros b. symmetry. apply upper_lower.
Qed.
Lemma keyword_fun k1 k2 w : keyword k1 w -> keyword k2 w -> k1 = k2.
Proof. rewrite !keyword_low. intros A B. apply found in A, B. congruence. Qed.
Lemma match_keyword k c w : is_alpha c = true -> keyword k (c :: w) -> keyword_match (c :: w) = Ok (Some k).
Proof. intros A K. rewrite find_low by exact A. apply keyword_low in K. now rewrite (found _ _ K). Qed.
Lemma match_none c w : is_alpha c = true -> (forall k, ~ keyword k (c :: w)) -> keyword_match (c :: w) = Ok None.
Proof.
  intros A K. rewrite find_low by exact A. destruct (low_find (map lower (c :: w))) as [k|] eqn:E; [|reflexivity].
  exfalso. apply (K k). apply keyword_low. now apply found_inv.
Qed.
Lemma match_inv c w o : is_alpha c = true -> keyword_match (c :: w) = Ok o -> match o with Some k => keyword k (c :: w) | None => forall k, ~ keyword k (c :: w) end.
Proof.
  intros A H. rewrite find_low in H by exact A. destruct (low_find (map lower (c :: w))) as [k|] eqn:E; injection H as <-.
  - apply keyword_low. now apply found_inv.
  - intros k K. apply keyword_low in K. apply found in K. congruence.
Qed.
Definition low_letters : bool := forallb (fun w => match w with [] => false | b :: _ => (97 <=? b) && (b <=? 122) end && forallb (fun b => (97 <=? b) && (b <=? 122) || (b =? 95)) w) low_names.
Lemma low_letters_ok : low_letters = true.
Proof. vm_compute. reflexivity. Qed.
Lemma keyword_part k w : keyword k w -> exists c w', w = c :: w' /\ letter c /\ Forall name_char w.
Proof.
  rewrite keyword_low. intros H. apply nth_error_In in H. pose proof low_letters_ok as F. unfold low_letters in F. rewrite forallb_forall in F. specialize (F _ H).
  apply andb_prop in F as [F1 F2]. destruct w as [|c w]; [discriminate|]. exists c, w. split; [reflexivity|]. cbn [map] in F1.
  assert (N : forall b, (97 <=? lower b) && (lower b <=? 122) || (lower b =? 95) = true -> name_char b).
  { intros b. unfold lower, name_char, letter, digit. destruct ((65 <=? b) && (b <=? 90)) eqn:E; lia. }
  split; [unfold lower, letter in *; destruct ((65 <=? c) && (c <=? 90)) eqn:E; lia|].
  rewrite forallb_forall in F2. apply Forall_forall. intros b I. apply N, F2. now apply in_map.
Qed.

(** *** names *)
Definition stops (s : list Z) : Prop := match s with [] => True | b :: _ => name_byte b = false end.
Lemma name_char_byte b : name_char b -> name_byte b = true /\ b <> 46.
Proof. unfold name_char, name_byte, letter, digit, is_alpha, is_digit. lia. Qed.
Lemma name_byte_char b : name_byte b = true -> b = 46 \/ name_char b.
Proof. unfold name_char, name_byte, letter, digit, is_alpha, is_digit. lia. Qed.
Lemma nl_stop d l s : stops s -> name_loop d l s = Ok ([], d, l, s).
Proof. destruct s as [|b s]; [reflexivity|]. cbn [stops name_loop]. intros ->. reflexivity. Qed.
Definition cons_name (p : list Z) (x : res (list Z * bool * bool * list Z)) := do (w, d, l, r) <- x; Ok (p ++ w, d, l, r).
Lemma nl_chars p : Forall name_char p -> forall d l s, name_loop d l (p ++ s) = cons_name p (name_loop d (match p with [] => l | _ => false end) s).
Proof.
  induction 1 as [|b p B _ IH]; intros d l s; unfold cons_name.
  - cbn [app]. destruct (name_loop d l s) as [[[[w d'] l'] r]| |]; reflexivity.
  - cbn [app name_loop]. destruct (name_char_byte b B) as [B1 B2]. rewrite B1. replace (b =? 46) with false by lia. cbn [andb]. rewrite orb_false_r, IH. unfold cons_name.
    replace (match p with [] => false | _ => false end) with false by (destruct p; reflexivity). destruct (name_loop d false s) as [[[[w d'] l'] r]| |]; reflexivity.
Qed.
Lemma nl_dot d l s : d && l = false -> name_loop d l (46 :: s) = cons_name [46] (name_loop true true s).
Proof. intros H. cbn [name_loop]. change (name_byte 46) with true. cbv iota. rewrite H. cbn [Z.eqb Pos.eqb andb]. rewrite orb_true_r. reflexivity. Qed.
Lemma cons_name_app a b x : cons_name a (cons_name b x) = cons_name (a ++ b) x.
Proof. destruct x as [[[[w d] l] r]| |]; [|reflexivity|reflexivity]. unfold cons_name. cbn [bind]. now rewrite app_assoc. Qed.
Definition more (ps : list (list Z)) : bool := match ps with _ :: _ :: _ => true | _ => false end.
Lemma nl_dotted ps : Forall part ps -> ps <> [] -> forall d l s, name_loop d l (dotted ps ++ s) = cons_name (dotted ps) (name_loop (d || more ps) false s).
Proof.
  induction 1 as [|p ps [P1 P2] Ps IH]; intros N d l s; [contradiction|]. destruct ps as [|q ps].
  - cbn [dotted more]. rewrite orb_false_r, nl_chars by exact P2. destruct p; [contradiction|reflexivity].
  - cbn [more]. rewrite orb_true_r. change (dotted (p :: q :: ps)) with (p ++ 46 :: dotted (q :: ps)). rewrite <- app_assoc, nl_chars by exact P2. destruct p as [|b p]; [contradiction|]. cbn [app].
    rewrite nl_dot by now rewrite andb_false_r. rewrite IH by discriminate. rewrite !cons_name_app, <- ?app_assoc. cbn [app orb]. rewrite <- ?app_assoc. reflexivity.
Qed.
Lemma nl_quoted ps s : quoted_parts ps -> name_loop false false (dotted ps ++ s) = cons_name (dotted ps) (name_loop (more ps) false s).
Proof.
  intros (p & qs & -> & P & Q). destruct qs as [|q qs].
  - cbn [dotted more]. rewrite nl_chars by exact P. destruct p; reflexivity.
  - cbn [more]. change (dotted (p :: q :: qs)) with (p ++ 46 :: dotted (q :: qs)). rewrite <- app_assoc, nl_chars by exact P. cbn [app].
    rewrite nl_dot by reflexivity. rewrite nl_dotted by (auto || discriminate). rewrite !cons_name_app, <- ?app_assoc. cbn [app orb]. rewrite <- ?app_assoc. reflexivity.
Qed.
Lemma parts_quoted ps : parts ps -> quoted_parts ps.
Proof. intros (F & c & p & ps' & -> & _). inversion F as [|? ? [P1 P2] Q]; subst. exists (c :: p), ps'. auto. Qed.

Lemma nl_inv s : forall d l w d' l' r, name_loop d l s = Ok (w, d', l', r) ->
  s = w ++ r /\ stops r /\ exists p qs t, w = dotted (p :: qs) ++ t /\ (t = [] \/ t = [46]) /\ Forall name_char p /\ Forall part qs /\
    d' = d || negb (match qs, t with [], [] => true | _, _ => false end) /\
    l' = (match t with [] => false | _ => true end) || (match p, qs, t with [], [], [] => l | _, _, _ => false end) /\
    (d && l = true -> p = [] -> qs = [] /\ t = []).
Proof.
  induction s as [|b s IH]; intros d l w d' l' r H; cbn [name_loop] in H.
  - injection H as <- <- <- <-. split; [reflexivity|]. split; [exact I|]. exists [], [], []. cbn. rewrite orb_false_r. repeat split; auto; constructor.
  - destruct (name_byte b) eqn:B.
    2:{ injection H as <- <- <- <-. split; [reflexivity|]. split; [exact B|]. exists [], [], []. cbn. rewrite orb_false_r. repeat split; auto; constructor. }
    destruct (name_byte_char b B) as [->|C].
    + change (46 =? 46) with true in H. cbn [andb] in H. destruct (d && l) eqn:DL; [discriminate|]. rewrite orb_true_r in H.
      destruct (name_loop true true s) as [[[[w0 d0] l0] r0]| |] eqn:E; cbn [bind] in H; try discriminate. injection H as <- <- <- <-.
      destruct (IH _ _ _ _ _ _ E) as (Es & St & p & qs & t & Ew & T & P & Q & Ed & El & X). split; [cbn [app]; now f_equal|]. split; [exact St|].
      destruct p as [|x p].
      * destruct (X eq_refl eq_refl) as [-> ->]. exists [], [], [46]. cbn in Ew. subst w0. cbn. rewrite orb_true_r. cbn in Ed, El. repeat split; auto; try constructor. all: try (intros; discriminate).
      * exists [], ((x :: p) :: qs), t. split; [rewrite Ew; reflexivity|]. split; [exact T|]. split; [constructor|]. split; [constructor; [split; [discriminate|exact P]|exact Q]|].
        split; [cbn in Ed; rewrite Ed; cbn; now rewrite orb_true_r|]. split; [cbn in El; rewrite El; destruct t; reflexivity|]. intros; discriminate.
    + destruct (name_char_byte b C) as [_ N]. assert (Nb : (b =? 46) = false) by lia. rewrite Nb in H. cbn [andb] in H. rewrite orb_false_r in H.
      destruct (name_loop d false s) as [[[[w0 d0] l0] r0]| |] eqn:E; cbn [bind] in H; try discriminate. injection H as <- <- <- <-.
      destruct (IH _ _ _ _ _ _ E) as (Es & St & p & qs & t & Ew & T & P & Q & Ed & El & X). split; [cbn [app]; now f_equal|]. split; [exact St|].
      exists (b :: p), qs, t. split; [rewrite Ew; destruct qs; reflexivity|]. split; [exact T|]. split; [constructor; assumption|]. split; [exact Q|]. split; [exact Ed|].
      split; [rewrite El; destruct p, qs, t; reflexivity|]. intros _ Z0; discriminate Z0.
Qed.

(** *** strings *)
Lemma bytes_split b s : bytes_ok (b :: s) = true -> 0 <= b < 256 /\ bytes_ok s = true.
Proof. cbn. intros H. apply andb_prop in H as [A B]. unfold byte_ok in A. split; [lia|exact B]. Qed.
Definition quote (q : Z) : Prop := q = 34 \/ q = 39.
Lemma quote_char q c s : quote q -> code c -> c <> q -> exists b t, utf8 c ++ s = b :: t /\ b <> q /\ (c <> 92 -> b <> 92).
Proof.
  intros Q Hc N. destruct (utf8_head c Hc) as (b & t & E & A & B & _). exists b, (t ++ s). split; [now rewrite E|].
  destruct (Z_lt_dec c 128) as [L|L]; [destruct (A L) as [-> _]; split; [exact N|auto]|]. specialize (B ltac:(lia)). unfold quote in Q. split; [|intros _]; lia.
Qed.
Lemma utf8_small c : code c -> c < 128 -> utf8 c = [c].
Proof. intros Hc L. unfold utf8. now replace (c <? 128) with true by lia. Qed.
Lemma utf8_len c : code c -> (1 <= length (utf8 c))%nat.
Proof. intros H. destruct (utf8_head c H) as (b & t & -> & _). cbn. lia. Qed.
Lemma string_at_quote q f e r : lex_string (S f) q false e (q :: r) = Ok (e, q :: r).
Proof. cbn [lex_string]. rewrite Z.eqb_refl. reflexivity. Qed.
Lemma string_char q f c e s : quote q -> code c -> c <> q -> c <> 92 -> lex_string (S f) q false e (utf8 c ++ s) = lex_string f q false e s.
Proof.
  intros Q Hc N1 N2. destruct (quote_char q c s Q Hc N1) as (b & t & E & B1 & B2). pose proof (next_enc c s Hc) as Nx. rewrite E in *. cbn [lex_string].
  replace (b =? q) with false by lia. cbn [andb]. rewrite Nx. cbn [bind]. specialize (B2 N2). replace (b =? 92) with false by lia. reflexivity.
Qed.
Lemma string_slash q f e s : quote q -> lex_string (S f) q false e (92 :: s) = lex_string f q true true s.
Proof.
  intros Q. cbn [lex_string]. assert (E : (92 =? q) = false) by (unfold quote in Q; lia). rewrite E. cbn [andb]. rewrite (next_byte (fun _ => None) 92 s) by lia. reflexivity.
Qed.
Lemma string_escaped q f c s : quote q -> code c -> lex_string (S f) q true true (utf8 c ++ s) = lex_string f q false true s.
Proof.
  intros Q Hc. destruct (Z.eq_dec c q) as [->|N].
  - rewrite utf8_small by (unfold quote in Q; assumption || lia). cbn [app lex_string]. rewrite Z.eqb_refl. reflexivity.
  - destruct (quote_char q c s Q Hc N) as (b & t & E & B1 & B2). pose proof (next_enc c s Hc) as Nx. rewrite E in *. cbn [lex_string].
    replace (b =? q) with false by lia. cbn [andb]. rewrite Nx. cbn [bind negb]. destruct (b =? 92); reflexivity.
Qed.
Lemma has92_in s : has92 s = true <-> In 92 s.
Proof.
  unfold has92. rewrite existsb_exists. split; [intros (x & I & E); apply Z.eqb_eq in E; now subst|]. intros I. exists 92. split; [exact I|reflexivity].
Qed.
Lemma has_escape_92 s e : has_escape s e <-> e = has92 s.
Proof.
  unfold has_escape. rewrite <- has92_in. destruct e, (has92 s); intuition congruence.
Qed.
Lemma has92_cons b s : has92 (b :: s) = (92 =? b) || has92 s.
Proof. reflexivity. Qed.
Lemma string_ok q s : quote q -> body q s -> forall f e rest, (length s < f)%nat -> lex_string f q false e (s ++ q :: rest) = Ok (e || has92 s, q :: rest).
Proof.
  intros Q. induction 1 as [|c s Hc N1 N2 _ IH|c s Hc _ IH]; intros f e rest L.
  - destruct f; [cbn in L; lia|]. cbn [app]. rewrite string_at_quote. cbn. now rewrite orb_false_r.
  - rewrite app_length in L. pose proof (utf8_len c Hc). destruct f as [|f]; [lia|]. rewrite <- app_assoc, string_char by assumption.
    rewrite IH by lia. rewrite has92_app, utf8_no92 by assumption. reflexivity.
  - cbn [length] in L. rewrite app_length in L. pose proof (utf8_len c Hc). destruct f as [|[|f]]; [lia|lia|]. cbn [app]. rewrite <- app_assoc, string_slash, string_escaped by assumption.
    rewrite IH by lia. rewrite has92_cons, orb_true_r. reflexivity.
Qed.
Lemma string_inv q f : quote q -> forall sl e s e' r, bytes_ok s = true -> lex_string f q sl e s = Ok (e', r) -> exists w r',
  s = w ++ r /\ r = q :: r' /\ e' = e || has92 w /\
  (if sl : bool then exists c v, code c /\ w = utf8 c ++ v /\ body q v else body q w).
Proof.
  intros Q. induction f as [|f IH]; intros sl e s e' r B H; [discriminate|]. cbn [lex_string] in H. destruct s as [|c s]; [discriminate|].
  destruct (Z.eqb_spec c q) as [->|N].
  - destruct sl; cbn [andb] in H.
    + assert (B' : bytes_ok s = true) by (apply bytes_split in B; tauto). apply IH in H as (w & r' & -> & Er & Ee & Bd); [|exact B'].
      exists (q :: w), r'. split; [reflexivity|]. split; [exact Er|]. split; [rewrite has92_cons, Ee; replace (92 =? q) with false by (unfold quote in Q; lia); reflexivity|].
      exists q, w. assert (Cq : code q) by (unfold code, quote in *; lia). split; [exact Cq|]. split; [|exact Bd]. rewrite utf8_small by (assumption || unfold quote in Q; lia). reflexivity.
    + injection H as <- <-. exists [], s. repeat split; [now rewrite orb_false_r|constructor].
  - cbn [andb] in H. destruct (utf8_next (c :: s)) as [[[u|] r0]| |] eqn:Nx; cbn [bind] in H; try discriminate.
    apply next_inv in Nx as [Hu Eu]; [|exact B]. rewrite Eu in B. rewrite bytes_ok_app in B. apply andb_prop in B as [_ B].
    apply IH in H as (w & r' & -> & Er & Ee & Bd); [|exact B]. exists (utf8 u ++ w), r'. split; [rewrite Eu; apply app_assoc|]. split; [exact Er|].
    destruct (utf8_head u Hu) as (b & t & Eb & A & A' & F). assert (Eh : c = b) by (rewrite Eb in Eu; cbn [app] in Eu; congruence).
    destruct (Z.eqb_spec c 92) as [E92|N92].
    + assert (U : u = 92) by (destruct (Z_lt_dec u 128) as [L|L]; [destruct (A L); lia|specialize (A' ltac:(lia)); lia]). subst u.
      change (utf8 92) with [92]. cbn [app]. split; [rewrite Ee, has92_cons; cbn; now rewrite orb_true_r|].
      destruct sl; cbn [negb] in Bd.
      * exists 92, w. auto.
      * destruct Bd as (c' & v & Hc' & -> & Bd). now constructor.
    + assert (U : u <> 92) by (intros ->; change (utf8 92) with [92] in Eb; congruence).
      split; [rewrite Ee, has92_app, utf8_no92 by assumption; reflexivity|]. destruct sl.
      * exists u, w. auto.
      * constructor; try assumption. intros ->. rewrite utf8_small in Eb by (assumption || unfold quote in Q; lia). congruence.
Qed.
Lemma next_shorter s u r : utf8_next s = Ok (u, r) -> u <> None -> (length r < length s)%nat.
Proof.
  rewrite next_eq. destruct s as [|b s]; [discriminate|]. cbv zeta. intros H N.
  repeat match type of H with (if ?c then _ else _) = _ => destruct c end; injection H as <- <-; try (exfalso; now apply N);
    cbn [skipn length]; rewrite ?skipn_length; destruct s as [|? [|? [|? ?]]]; cbn; lia.
Qed.
Lemma string_safe q f : forall sl e s, (length s < f)%nat -> lex_string f q sl e s <> UB.
Proof.
  induction f as [|f IH]; intros sl e s L; [lia|]. cbn [lex_string]. destruct s as [|c s]; [discriminate|].
  destruct ((c =? q) && sl); [apply IH; cbn [length] in L; lia|]. destruct (c =? q); [discriminate|].
  destruct (utf8_next (c :: s)) as [[[u|] r]| |] eqn:Nx; cbn [bind]; try discriminate.
  - apply IH. apply next_shorter in Nx; [lia|discriminate].
  - exfalso. now apply (next_safe (c :: s)).
Qed.

(** *** every word is read *)
Section Reads.
Variable sd : list Z -> option (Z * list Z).
Notation word := (word sd).
Variable value : list Z -> Z -> Prop.
(** strtod reads a real; nothing else of the C library is assumed *)
Definition reads : Prop := forall w bits rest, real_text w -> value w bits ->
  (match rest with [] => True | d :: _ => ~ digit d /\ d <> 46 /\ d <> 101 /\ d <> 69 end) -> sd (w ++ rest) = Some (bits, rest).
Hypothesis SD : reads.
Definition real (w : list Z) (bits : Z) : Prop := real_text w /\ value w bits.

Lemma ends_stop w v rest : ends w (TInt v) rest -> stop rest.
Proof. unfold ends. destruct rest as [|d r]; [constructor|]. intros H. specialize (H d r eq_refl). cbn in H. unfold stop, is_digit, digit in *. lia. Qed.
Lemma digit_head d s rest : digit d -> word true ((d :: s) ++ rest) = do (t, r) <- lex_number sd ((d :: s) ++ rest); Ok (t, (d :: s) ++ rest, r).
Proof. intros H. cbn [app word]. unfold digit in H. replace (is_digit d) with true by (unfold is_digit; lia). reflexivity. Qed.
Lemma word_int ds rest : ds <> [] -> digits_text ds -> in_range ds -> ends ds (TInt (num ds)) rest -> word true (ds ++ rest) = Ok (TInt (num ds), ds ++ rest, rest).
Proof.
  intros N D R E. destruct ds as [|d ds]; [contradiction|]. rewrite digit_head by now inversion D. unfold lex_number.
  unfold in_range in R. rewrite <- (app_nil_r (d :: ds)) in R. rewrite (first_digits_app (d :: ds) [] D I) in R.
  rewrite (int_loop_ok sd); [reflexivity|lia|now apply digits_bool|exact R|eapply ends_stop; exact E].
Qed.
Lemma word_real w bits rest : real w bits -> in_range w -> ends w (TReal bits) rest -> word true (w ++ rest) = Ok (TReal bits, w ++ rest, rest).
Proof.
  intros [T V] R E. assert (Sd : sd (w ++ rest) = Some (bits, rest)).
  { apply SD; [exact T|exact V|]. destruct rest as [|d r]; [exact I|]. apply (E d r eq_refl). }
  destruct T as (i & f & x & Ew & Ni & Di & Hf & Hx & Hn).
  assert (C : exists c y, f ++ x = c :: y /\ (c = 46 \/ c = 101 \/ c = 69)).
  { destruct Hf as [->|(ds & -> & _)]; [|exists 46; eexists; split; [reflexivity|auto]]. destruct Hx as [->|(e & sg & ds & -> & He & _)]; [now destruct Hn|].
    exists e; eexists; split; [reflexivity|]. lia. }
  destruct C as (c & y & Ec & Hc). rewrite Ec in Ew. destruct i as [|d i]; [contradiction|]. rewrite Ew in *. rewrite <- app_assoc.
  rewrite digit_head by now inversion Di. unfold lex_number. unfold in_range in R. rewrite (first_digits_app (d :: i) (c :: y) Di) in R by (unfold digit; lia).
  rewrite <- app_assoc in Sd. rewrite <- (app_comm_cons y rest c) in *. rewrite int_loop_real; [|lia|now apply digits_bool|exact R|exact Hc]. cbn [bind]. rewrite Sd. reflexivity.
Qed.
Lemma symbols_in a b o : In (a, b, o) two_symbols -> symbols a b = Some o.
Proof. unfold two_symbols. cbn [In]. intros H. repeat (destruct H as [H|H]; [injection H as <- <- <-; reflexivity|]). contradiction. Qed.
Lemma symbols_inv a b o : symbols a b = Some o -> In (a, b, o) two_symbols.
Proof.
  unfold symbols, two_symbols. cbn [In]. intros H.
  repeat match type of H with (if ?c then _ else _) = _ => destruct c eqn:? ; [injection H as <-; repeat match goal with E : _ && _ = true |- _ => apply andb_prop in E as [? ?] end;
    repeat match goal with E : (_ =? _) = true |- _ => apply Z.eqb_eq in E end; subst; tauto|] end. discriminate.
Qed.
Lemma symbol_punct c : In c one_symbol <-> is_punct c && negb (c =? 34) && negb (c =? 39) && negb (c =? 96) && negb (c =? 95) = true.
Proof. unfold one_symbol, is_punct. cbn [In]. lia. Qed.
Lemma symbol_digit c : In c one_symbol -> is_digit c = false.
Proof. unfold one_symbol, is_digit. cbn [In]. lia. Qed.
Lemma word_symbol c rest : In c one_symbol -> ends [c] (TSym c) rest -> word true (c :: rest) = Ok (TSym c, c :: rest, rest).
Proof.
  intros I E. unfold word. rewrite symbol_digit by exact I. apply symbol_punct in I. rewrite I. destruct rest as [|d r]; [reflexivity|].
  destruct (E d r eq_refl) as [E1 _]. destruct (symbols c d) as [o|] eqn:S; [|reflexivity]. exfalso. apply (E1 o). now apply symbols_inv.
Qed.
Lemma two_first a b o : In (a, b, o) two_symbols -> In a one_symbol.
Proof. unfold two_symbols, one_symbol. cbn [In]. intros H. repeat (destruct H as [H|H]; [injection H as <- <- <-; tauto|]). contradiction. Qed.
Lemma word_two a b o rest : In (a, b, o) two_symbols -> word true (a :: b :: rest) = Ok (TOp o, a :: b :: rest, rest).
Proof.
  intros I. pose proof (two_first a b o I) as J. unfold word. rewrite symbol_digit by exact J. apply symbol_punct in J. rewrite J. now rewrite (symbols_in a b o I).
Qed.
Lemma word_string q s e rest : quote q -> body q s -> has_escape s e -> word true ((q :: s ++ [q]) ++ rest) = Ok (TString s e, (q :: s ++ [q]) ++ rest, rest).
Proof.
  intros Q Bd He. apply has_escape_92 in He. subst e. cbn [app]. rewrite <- app_assoc. cbn [app]. unfold word.
  replace (is_digit q) with false by (unfold is_digit, quote in *; lia). replace (is_punct q && negb (q =? 34) && negb (q =? 39) && negb (q =? 96) && negb (q =? 95)) with false by (unfold is_punct, quote in *; lia).
  replace (is_alpha q || (q =? 95)) with false by (unfold is_alpha, quote in *; lia). replace (q =? 96) with false by (unfold quote in *; lia).
  replace ((q =? 34) || (q =? 39)) with true by (unfold quote in *; lia). rewrite string_ok by (try assumption; rewrite app_length; cbn; lia). cbn [bind orb tl].
  rewrite app_length. cbn [length]. replace (length s + S (length rest) - S (length rest))%nat with (length s) by lia. rewrite firstn_app, Nat.sub_diag, firstn_all. cbn [firstn]. now rewrite app_nil_r.
Qed.
Lemma alpha_word c s kw : letter c \/ c = 95 -> word kw (c :: s) = do (t, r) <- lex_name kw false (c :: s); Ok (t, c :: s, r).
Proof.
  intros H. unfold word, letter in *. replace (is_digit c) with false by (unfold is_digit; lia).
  replace (is_punct c && negb (c =? 34) && negb (c =? 39) && negb (c =? 96) && negb (c =? 95)) with false by (unfold is_punct; lia).
  replace (is_alpha c || (c =? 95)) with true by (unfold is_alpha; lia). reflexivity.
Qed.
Lemma back_word s kw : word kw (96 :: s) = do (t, r) <- lex_name kw true s; Ok (t, 96 :: s, r).
Proof. reflexivity. Qed.
Lemma not_name_byte d : ~ name_char d -> d <> 46 -> name_byte d = false.
Proof. intros H N. destruct (name_byte d) eqn:E; [|reflexivity]. destruct (name_byte_char d E); contradiction. Qed.
Lemma ends_name w t rest : (match t with TName _ | TCompound _ | TKeyword _ => True | _ => False end) -> hd 0 w <> 96 -> ends w t rest -> stops rest.
Proof.
  intros T N E. destruct rest as [|d r]; [exact I|]. specialize (E d r eq_refl). destruct t; try contradiction; destruct E as [E|[E1 E2]]; try contradiction; now apply not_name_byte.
Qed.
Lemma letter_alpha c : letter c -> is_alpha c = true.
Proof. unfold letter, is_alpha. lia. Qed.
Lemma name_read p rest d l : Forall name_char p -> stops rest -> name_loop d l (p ++ rest) = Ok (p, d, match p with [] => l | _ => false end, rest).
Proof. intros P S. rewrite nl_chars by exact P. rewrite nl_stop by exact S. unfold cons_name. cbn [bind]. now rewrite app_nil_r. Qed.
Lemma word_keyword k w rest : keyword k w -> ends w (TKeyword k) rest -> word true (w ++ rest) = Ok (TKeyword k, w ++ rest, rest).
Proof.
  intros K E. destruct (keyword_part k w K) as (c & w' & -> & L & F). assert (S : stops rest) by (refine (ends_name _ _ _ _ _ E); [exact I|]; cbn [hd]; unfold letter in L; lia).
  rewrite <- app_comm_cons, alpha_word by now left. rewrite app_comm_cons. unfold lex_name. rewrite name_read by assumption. cbn [bind].
  unfold letter in L. replace (c =? 95) with false by lia. cbn [negb andb]. rewrite (match_keyword k) by (assumption || now apply letter_alpha). reflexivity.
Qed.
Lemma word_name p rest : parts [p] -> (forall k, ~ keyword k p) -> ends p (TName p) rest -> word true (p ++ rest) = Ok (TName p, p ++ rest, rest).
Proof.
  intros (F & c & p' & ps & Ep & L) K E. injection Ep as -> <-. inversion F as [|? ? [P1 P2] _]; subst.
  assert (S : stops rest) by (refine (ends_name _ _ _ _ _ E); [exact I|]; cbn [hd]; unfold letter in L; lia).
  rewrite <- app_comm_cons, alpha_word by exact L. rewrite app_comm_cons. unfold lex_name. rewrite name_read by assumption. cbn [bind].
  destruct (Z.eqb_spec c 95) as [->|N]; [reflexivity|]. cbn [negb andb]. destruct L as [L|L]; [|contradiction]. rewrite match_none by (assumption || now apply letter_alpha). reflexivity.
Qed.
Lemma dotted_head ps : parts ps -> exists c w, dotted ps = c :: w /\ (letter c \/ c = 95).
Proof. intros (_ & c & p & ps' & -> & L). exists c. destruct ps'; eexists; (split; [reflexivity|exact L]). Qed.
Lemma more_len ps : (2 <= length ps)%nat -> more ps = true.
Proof. destruct ps as [|? [|? ?]]; cbn; lia || reflexivity. Qed.
Lemma word_path ps rest : parts ps -> (2 <= length ps)%nat -> ends (dotted ps) (TCompound (dotted ps)) rest -> word true (dotted ps ++ rest) = Ok (TCompound (dotted ps), dotted ps ++ rest, rest).
Proof.
  intros P L E. destruct (dotted_head ps P) as (c & w & Ec & Lc). assert (S : stops rest) by (refine (ends_name _ _ _ _ _ E); [exact I|]; rewrite Ec; cbn [hd]; unfold letter in Lc; lia).
  assert (A : word true (dotted ps ++ rest) = do (t, r) <- lex_name true false (dotted ps ++ rest); Ok (t, dotted ps ++ rest, r)) by (rewrite Ec; now apply alpha_word).
  rewrite A. unfold lex_name. rewrite nl_quoted by now apply parts_quoted. rewrite more_len by exact L. rewrite nl_stop by exact S. unfold cons_name. cbn [bind]. now rewrite app_nil_r.
Qed.
Lemma word_star ps rest : parts ps -> word true ((dotted ps ++ [46; 42]) ++ rest) = Ok (TStar (dotted ps ++ [46; 42]), (dotted ps ++ [46; 42]) ++ rest, rest).
Proof.
  intros P. destruct (dotted_head ps P) as (c & w & Ec & Lc). rewrite <- app_assoc. cbn [app].
  assert (A : forall s, word true (dotted ps ++ s) = do (t, r) <- lex_name true false (dotted ps ++ s); Ok (t, dotted ps ++ s, r)) by (intros s; rewrite Ec; now apply alpha_word).
  rewrite A. unfold lex_name. rewrite nl_quoted by now apply parts_quoted. rewrite nl_dot by apply andb_false_r. rewrite nl_stop by reflexivity. unfold cons_name. cbn [bind app].
  change (42 =? 42) with true. cbv iota. cbn [bind]. rewrite <- app_assoc. reflexivity.
Qed.
Lemma word_quoted_name p rest : Forall name_char p -> word true ((96 :: p ++ [96]) ++ rest) = Ok (TName p, (96 :: p ++ [96]) ++ rest, rest).
Proof.
  intros P. cbn [app]. rewrite <- app_assoc. cbn [app]. rewrite back_word. unfold lex_name. rewrite name_read by (exact P || reflexivity). reflexivity.
Qed.
Lemma word_quoted_path ps rest : quoted_parts ps -> (2 <= length ps)%nat -> word true ((96 :: dotted ps ++ [96]) ++ rest) = Ok (TCompound (dotted ps), (96 :: dotted ps ++ [96]) ++ rest, rest).
Proof.
  intros P L. cbn [app]. rewrite <- app_assoc. cbn [app]. rewrite back_word. unfold lex_name. rewrite nl_quoted by exact P. rewrite more_len by exact L. rewrite nl_stop by reflexivity.
  unfold cons_name. cbn [bind]. rewrite app_nil_r. reflexivity.
Qed.
Lemma word_quoted_star ps rest : quoted_parts ps -> word true ((96 :: dotted ps ++ [46; 42; 96]) ++ rest) = Ok (TStar (dotted ps ++ [46; 42]), (96 :: dotted ps ++ [46; 42; 96]) ++ rest, rest).
Proof.
  intros P. cbn [app]. rewrite <- app_assoc. cbn [app]. rewrite back_word. unfold lex_name. rewrite nl_quoted by exact P. rewrite nl_dot by apply andb_false_r. rewrite nl_stop by reflexivity.
  unfold cons_name. cbn [bind app]. change (42 =? 42) with true. cbv iota. cbn [bind]. change (96 =? 96) with true. cbv iota. rewrite <- app_assoc. reflexivity.
Qed.
Lemma spelled_word w t rest : spelled real w t -> in_range w -> ends w t rest -> word true (w ++ rest) = Ok (t, w ++ rest, rest).
Proof.
  intros S R E. destruct S.
  - now apply word_int.
  - now apply word_real.
  - now apply word_symbol.
  - now apply word_two.
  - now apply word_keyword.
  - now apply word_name.
  - now apply word_path.
  - now apply word_star.
  - now apply word_quoted_name.
  - now apply word_quoted_path.
  - now apply word_quoted_star.
  - now apply word_string.
Qed.
Lemma spelled_head w t rest : spelled real w t -> ends w t rest -> w <> [] /\ head_ok (w ++ rest).
Proof.
  assert (G : forall c s, is_space c = false -> c <> 45 -> head_ok (c :: s)) by (intros c s A B; split; [exact A|]; intros [C _]; contradiction).
  assert (GD : forall d s, digit d -> head_ok (d :: s)) by (intros; apply G; unfold digit, is_space in *; lia).
  assert (GL : forall d s, letter d \/ d = 95 -> head_ok (d :: s)) by (intros; apply G; unfold letter, is_space in *; lia).
  intros S E. destruct S.
  - destruct ds as [|d ds]; [contradiction|]. split; [discriminate|]. apply GD. now inversion H0.
  - destruct H as [(i & f & x & -> & N & D & _) _]. destruct i as [|d i]; [contradiction|]. split; [discriminate|]. apply GD. now inversion D.
  - split; [discriminate|]. cbn [app]. split; [unfold one_symbol, is_space in *; cbn [In] in H; lia|]. intros [-> (r & ->)]. destruct (E 45 r eq_refl) as [_ E2]. apply E2. auto.
  - split; [discriminate|]. cbn [app]. pose proof (two_first _ _ _ H) as J. split; [unfold one_symbol, is_space in *; cbn [In] in J; lia|]. intros [-> (r & Er)]. injection Er as -> _.
    unfold two_symbols in H. cbn [In] in H. repeat (destruct H as [H|H]; [discriminate|]). contradiction.
  - destruct (keyword_part k w H) as (c & w' & -> & L & _). split; [discriminate|]. apply GL. now left.
  - destruct H as (_ & c & p' & ps & Ep & L). injection Ep as -> _. split; [discriminate|]. now apply GL.
  - destruct (dotted_head ps H) as (c & w & -> & L). split; [discriminate|]. now apply GL.
  - destruct (dotted_head ps H) as (c & w & -> & L). split; [discriminate|]. now apply GL.
  - split; [discriminate|]. apply G; reflexivity || discriminate.
  - split; [discriminate|]. apply G; reflexivity || discriminate.
  - split; [discriminate|]. apply G; reflexivity || discriminate.
  - split; [discriminate|]. apply G; unfold is_space; lia.
Qed.
Lemma next_ok g w t rest : gap g -> spelled real w t -> in_range w -> ends w t rest -> lex_next sd true (g ++ w ++ rest) = Ok (t, w ++ rest, rest).
Proof. intros G S R E. rewrite next_gap; [now apply spelled_word|exact G|]. apply (spelled_head w t rest S E). Qed.
Lemma next_end s : gap_end s -> lex_next sd true s = Ok (TEof, [], []).
Proof. intros G. rewrite next_word, skip_gap_end; [reflexivity|exact G|lia]. Qed.
Lemma spelled_not_eof w t : spelled real w t -> t <> TEof.
Proof. intros S. destruct S; discriminate. Qed.
Lemma all_ok ts s : sql_text real (fun w t rest => in_range w /\ ends w t rest) ts s -> forall f, (length s < f)%nat -> lex_all sd f s = Ok ts.
Proof.
  induction 1 as [s G|g w t ts s G S [R E] _ IH]; intros f L; (destruct f as [|f]; [lia|]); cbn [lex_all].
  - rewrite next_end by exact G. reflexivity.
  - rewrite (next_ok g w t s) by assumption. cbn [bind]. rewrite IH.
    + cbn [bind]. pose proof (spelled_not_eof w t S). destruct t; try reflexivity. contradiction.
    + rewrite !app_length in L. destruct (spelled_head w t s S E) as [N _]. destruct w; [contradiction|]. cbn [length] in L. lia.
Qed.
End Reads.

(** ** what is read is spelled *)
Section Sound.
Variable sd : list Z -> option (Z * list Z).
(** strtod reads at least the digit a number begins with *)
Hypothesis SD : forall b s bits r, is_digit b = true -> sd (b :: s) = Some (bits, r) -> exists w, w <> [] /\ b :: s = w ++ r.
Definition real_read (w : list Z) (bits : Z) : Prop := exists rest, sd (w ++ rest) = Some (bits, rest).
Notation spelled := (spelled real_read).

Lemma dotted_name p qs c s r t : Forall name_char p -> letter c \/ c = 95 -> c :: s = (dotted (p :: qs) ++ t) ++ r -> stops r -> t = [] \/ t = [46] -> exists p', p = c :: p'.
Proof.
  intros P L E St T. destruct p as [|x p].
  - exfalso. destruct qs as [|q qs]; cbn [dotted app] in E.
    + destruct T as [->| ->]; cbn [app] in E.
      * rewrite <- E in St. cbn [stops] in St. unfold name_byte, is_alpha, letter in *. lia.
      * injection E as -> _. unfold letter in L. lia.
    + injection E as -> _. unfold letter in L. lia.
  - exists p. f_equal. destruct qs; cbn [dotted app] in E; congruence.
Qed.
Lemma name_sound c s t r : letter c \/ c = 95 -> lex_name true false (c :: s) = Ok (t, r) -> exists w, w <> [] /\ c :: s = w ++ r /\ spelled w t.
Proof.
  intros L H. unfold lex_name in H. destruct (name_loop false false (c :: s)) as [[[[w d] l] r0]| |] eqn:N; cbn [bind] in H; try discriminate.
  destruct (nl_inv _ _ _ _ _ _ _ N) as (Es & St & p & qs & tl & Ew & T & P & Q & Ed & El & _). rewrite Ew in Es.
  destruct (dotted_name p qs c s r0 tl P L Es St T) as (p' & Ep). subst p.
  assert (Pt : parts ((c :: p') :: qs)) by (split; [constructor; [split; [discriminate|exact P]|exact Q]|]; exists c, p', qs; auto).
  destruct T as [-> | ->].
  - rewrite app_nil_r in *. destruct qs as [|q qs].
    + cbn in Ed, El. subst d l. cbn [bind dotted] in *. rewrite Ew in H. destruct (Z.eqb_spec c 95) as [->|N95]; cbn [negb andb] in H.
      * injection H as <- <-. exists (95 :: p'). split; [discriminate|]. split; [exact Es|]. apply sp_name; [exact Pt|]. intros k K. destruct (keyword_part _ _ K) as (x & w' & E & Lx & _). injection E as <- _. unfold letter in Lx. lia.
      * destruct L as [L|L]; [|contradiction]. destruct (keyword_match (c :: p')) as [[k|]| |] eqn:M; cbn [bind] in H; try discriminate; injection H as <- <-;
          apply match_inv in M; try (now apply letter_alpha); exists (c :: p'); (split; [discriminate|]); (split; [exact Es|]); [now apply sp_keyword|now apply sp_name].
    + cbn in Ed, El. subst d l. cbn [bind] in H. injection H as <- <-. exists (dotted ((c :: p') :: q :: qs)). rewrite Ew. split; [cbn; discriminate|]. split; [exact Es|]. apply sp_path; [exact Pt|cbn; lia].
  - assert (Dt : d = true) by (rewrite Ed; destruct qs; reflexivity). assert (Lt : l = true) by (rewrite El; reflexivity). rewrite Dt, Lt in H. destruct r0 as [|b r0]; cbn [bind] in H; [discriminate|].
    destruct (Z.eqb_spec b 42) as [->|]; cbn [bind] in H; [|discriminate]. injection H as <- <-. exists (dotted ((c :: p') :: qs) ++ [46; 42]).
    split; [destruct qs; discriminate|]. split; [rewrite Es; rewrite <- !app_assoc; reflexivity|]. rewrite Ew, <- app_assoc. apply sp_star. exact Pt.
Qed.
Lemma back_sound s t r : lex_name true true s = Ok (t, r) -> exists w, 96 :: s = w ++ r /\ w <> [] /\ spelled w t.
Proof.
  intros H. unfold lex_name in H. destruct (name_loop false false s) as [[[[w d] l] r0]| |] eqn:N; cbn [bind] in H; try discriminate.
  destruct (nl_inv _ _ _ _ _ _ _ N) as (Es & St & p & qs & tl & Ew & T & P & Q & Ed & El & _). rewrite Ew in Es.
  assert (Pt : quoted_parts (p :: qs)) by (exists p, qs; auto).
  destruct T as [-> | ->].
  - rewrite app_nil_r in *. assert (Lf : l = false) by (rewrite El; destruct p, qs; reflexivity). rewrite Lf in H. destruct qs as [|q qs].
    + cbn in Ed. subst d. cbn [bind dotted] in *. destruct r0 as [|b r0]; [discriminate|]. destruct (Z.eqb_spec b 96) as [->|]; [|discriminate]. injection H as <- <-. rewrite Ew.
      exists (96 :: p ++ [96]). split; [rewrite Es; cbn [app]; rewrite <- app_assoc; reflexivity|]. split; [discriminate|]. now apply sp_quoted_name.
    + cbn in Ed. subst d. cbn [bind] in *. destruct r0 as [|b r0]; [discriminate|]. destruct (Z.eqb_spec b 96) as [->|]; [|discriminate]. injection H as <- <-. rewrite Ew.
      exists (96 :: dotted (p :: q :: qs) ++ [96]). split; [rewrite Es; cbn [app]; f_equal; rewrite <- app_assoc; reflexivity|]. split; [discriminate|]. apply sp_quoted_path; [exact Pt|cbn; lia].
  - assert (Dt : d = true) by (rewrite Ed; destruct qs; reflexivity). assert (Lt : l = true) by (rewrite El; reflexivity). rewrite Dt, Lt in H. destruct r0 as [|b r0]; cbn [bind] in H; [discriminate|].
    destruct (Z.eqb_spec b 42) as [->|]; cbn [bind] in H; [|discriminate]. destruct r0 as [|b r0]; [discriminate|]. destruct (Z.eqb_spec b 96) as [->|]; [|discriminate]. injection H as <- <-.
    exists (96 :: dotted (p :: qs) ++ [46; 42; 96]). split; [rewrite Es; cbn [app]; f_equal; rewrite <- !app_assoc; reflexivity|]. split; [discriminate|]. rewrite Ew, <- app_assoc. now apply sp_quoted_star.
Qed.
Lemma number_sound b s t r : is_digit b = true -> lex_number sd (b :: s) = Ok (t, r) -> exists w, w <> [] /\ b :: s = w ++ r /\ spelled w t.
Proof.
  intros D H. unfold lex_number in H. destruct (int_loop 0 (b :: s)) as [[[v r0]|[]]| |] eqn:L; cbn [bind] in H; try discriminate.
  - injection H as <- <-. destruct (int_loop_text _ _ _ _ (Z.le_refl 0) L) as (ds & E & Dd & ->). assert (N : ds <> []).
    { intros ->. cbn [app] in E. rewrite <- E in L. cbn [int_loop] in L. destruct ((b =? 46) || (b =? 101) || (b =? 69)); [discriminate|]. rewrite D in L. cbn [negb] in L.
      destruct (mul_add64 0 (b - 48)) as [v'| |]; cbn [bind] in L; try discriminate.
      assert (Ln : forall l v x y, int_loop v l = Ok (inl (x, y)) -> (length y <= length l)%nat).
      { clear. induction l as [|z l IH]; intros v x y H; cbn [int_loop] in H; [injection H as <- <-; lia|]. destruct ((z =? 46) || (z =? 101) || (z =? 69)); [discriminate|].
        destruct (negb (is_digit z)); [injection H as <- <-; lia|]. destruct (mul_add64 v (z - 48)); cbn [bind] in H; try discriminate. apply IH in H. cbn; lia. }
      apply Ln in L. cbn [length] in L. lia. }
    exists ds. split; [exact N|]. split; [exact E|]. apply sp_int; [exact N|]. now apply digits_bool.
  - destruct (sd (b :: s)) as [[bits r0]|] eqn:E; [|discriminate]. injection H as <- <-. destruct (SD _ _ _ _ D E) as (w & N & Ew).
    exists w. split; [exact N|]. split; [exact Ew|]. apply sp_real. exists r0. now rewrite <- Ew.
Qed.
Lemma firstn_minus {A} (w r : list A) : firstn (length (w ++ r) - length r) (w ++ r) = w.
Proof. rewrite app_length. replace (length w + length r - length r)%nat with (length w) by lia. rewrite firstn_app, Nat.sub_diag, firstn_all. cbn [firstn]. apply app_nil_r. Qed.
Lemma word_sound s t w0 r : bytes_ok s = true -> s <> [] -> word sd true s = Ok (t, w0, r) -> w0 = s /\ exists w, w <> [] /\ s = w ++ r /\ spelled w t.
Proof.
  intros B Ns H. destruct s as [|b s]; [contradiction|]. unfold word in H. destruct (is_digit b) eqn:D.
  { destruct (lex_number sd (b :: s)) as [[t' r']| |] eqn:E; cbn [bind] in H; try discriminate. injection H as <- <- <-. split; [reflexivity|]. now apply number_sound. }
  destruct (is_punct b && negb (b =? 34) && negb (b =? 39) && negb (b =? 96) && negb (b =? 95)) eqn:P.
  { apply symbol_punct in P. destruct s as [|c s]; [injection H as <- <- <-; split; [reflexivity|]; exists [b]; repeat split; [discriminate|now apply sp_symbol]|].
    destruct (symbols b c) as [o|] eqn:Sy; injection H as <- <- <-; (split; [reflexivity|]).
    - apply symbols_inv in Sy. exists [b; c]. repeat split; [discriminate|now apply sp_two].
    - exists [b]. repeat split; [discriminate|now apply sp_symbol]. }
  destruct (is_alpha b || (b =? 95)) eqn:A.
  { assert (L : letter b \/ b = 95) by (unfold is_alpha, letter in *; lia). destruct (lex_name true false (b :: s)) as [[t' r']| |] eqn:E; cbn [bind] in H; try discriminate. injection H as <- <- <-.
    split; [reflexivity|]. now apply name_sound. }
  destruct (Z.eqb_spec b 96) as [->|N96].
  { destruct (lex_name true true s) as [[t' r']| |] eqn:E; cbn [bind] in H; try discriminate. injection H as <- <- <-. split; [reflexivity|]. destruct (back_sound _ _ _ E) as (w & Ew & Nw & Sp). exists w. auto. }
  destruct ((b =? 34) || (b =? 39)) eqn:Q; [|discriminate]. assert (Q' : quote b) by (unfold quote; lia).
  destruct (lex_string (S (length s)) b false false s) as [[e r']| |] eqn:E; cbn [bind] in H; try discriminate. injection H as <- <- <-. split; [reflexivity|].
  destruct (string_inv b _ Q' _ _ _ _ _ (proj2 (bytes_split _ _ B)) E) as (w & r0 & -> & -> & Ee & Bd). cbn [tl]. rewrite firstn_minus.
  exists (b :: w ++ [b]). split; [discriminate|]. split; [cbn [app]; now rewrite <- app_assoc|]. apply sp_string; [exact Q'|exact Bd|]. now apply has_escape_92.
Qed.
Lemma next_sound text t w0 r : bytes_ok text = true -> lex_next sd true text = Ok (t, w0, r) ->
  (t = TEof /\ w0 = [] /\ r = [] /\ gap_end text) \/ exists g w, text = g ++ w ++ r /\ w0 = w ++ r /\ gap g /\ w <> [] /\ spelled w t.
Proof.
  intros B H. rewrite next_word in H. destruct (skip_gap_inv (S (length text)) text ltac:(lia)) as [[E G]|(g & E & G & N & _)].
  - rewrite E in H. injection H as <- <- <-. left. auto.
  - right. remember (skip_gap (S (length text)) text) as s eqn:Es. clear Es. assert (Bs : bytes_ok s = true) by (rewrite E, bytes_ok_app in B; apply andb_prop in B; tauto).
    destruct (word_sound s t w0 r Bs N H) as (-> & w & Nw & -> & Sp). exists g, w. auto.
Qed.
Lemma all_sound f : forall text ts, bytes_ok text = true -> lex_all sd f text = Ok ts -> sql_text real_read (fun _ _ _ => True) ts text.
Proof.
  induction f as [|f IH]; intros text ts B H; [discriminate|]. cbn [lex_all] in H. destruct (lex_next sd true text) as [[[t w0] r]| |] eqn:E; cbn [bind] in H; try discriminate.
  destruct (next_sound _ _ _ _ B E) as [(-> & _ & _ & G)|(g & w & -> & _ & G & Nw & Sp)]; [injection H as <-; now constructor|].
  assert (Br : bytes_ok r = true) by (rewrite !bytes_ok_app in B; apply andb_prop in B as [_ B]; apply andb_prop in B; tauto).
  assert (T : (do l <- lex_all sd f r; Ok (t :: l)) = Ok ts) by (destruct t; try exact H; inversion Sp). clear H.
  destruct (lex_all sd f r) as [l| |] eqn:El; cbn [bind] in T; try discriminate. injection T as <-. constructor; auto.
Qed.

(** ** no bad read *)
Lemma name_loop_safe s : forall d l, name_loop d l s <> UB.
Proof.
  induction s as [|b s IH]; intros d l; cbn [name_loop]; [discriminate|]. destruct (name_byte b); [|discriminate]. destruct ((b =? 46) && (d && l)); [discriminate|].
  destruct (name_loop (d || (b =? 46)) (b =? 46) s) as [[[[? ?] ?] ?]| |] eqn:E; cbn [bind]; try discriminate. now apply IH in E.
Qed.
Lemma name_safe kw wr s : (wr = false -> exists c s', s = c :: s' /\ (letter c \/ c = 95)) -> lex_name kw wr s <> UB.
Proof.
  intros W. unfold lex_name. destruct (name_loop false false s) as [[[[w d] l] r]| |] eqn:E; cbn [bind]; [|discriminate|now apply name_loop_safe in E].
  destruct (nl_inv _ _ _ _ _ _ _ E) as (Es & St & p & qs & tl & Ew & T & P & Q & Ed & El & _).
  assert (M : forall t r1, (match t with TName (c :: _) => wr = false -> letter c \/ c = 95 | _ => True end) -> (if wr then match r1 with [] => Err | b :: r2 => if b =? 96 then Ok (t, r2) else Err end
     else match t with TName (c :: w') => if kw && negb (c =? 95) then do k <- keyword_match (c :: w'); match k with Some k0 => Ok (TKeyword k0, r1) | None => Ok (t, r1) end else Ok (t, r1) | _ => Ok (t, r1) end) <> UB).
  { intros t r1 Ht. destruct wr; [destruct r1; [discriminate|]; destruct (_ =? 96); discriminate|]. destruct t; try discriminate. destruct s0 as [|c w']; [discriminate|].
    destruct kw; [|discriminate]. cbn [andb]. destruct (Z.eqb_spec c 95); cbn [negb]; [discriminate|]. destruct (Ht eq_refl) as [L|L]; [|contradiction].
    rewrite find_low by now apply letter_alpha. cbn [bind]. destruct (low_find _); discriminate. }
  destruct d; [destruct l|]; cbn [bind].
  - destruct r as [|b r]; [discriminate|]. destruct (b =? 42); [|discriminate]. cbn [bind]. apply M. exact I.
  - apply M. exact I.
  - apply (M (TName w) r). destruct w as [|c w]; [exact I|]. intros Hw. destruct (W Hw) as (c' & s' & Ec & L). rewrite Ec in Es. cbn [app] in Es. injection Es as <- _. exact L.
Qed.
Lemma next_safe' kw text : lex_next sd kw text <> UB.
Proof.
  rewrite next_word. destruct (skip_gap (S (length text)) text) as [|b s]; [discriminate|]. unfold word.
  destruct (is_digit b) eqn:D.
  { unfold lex_number. destruct (int_loop_inv (b :: s) 0 ltac:(unfold INT64_MAX; lia)) as [U _]. destruct (int_loop 0 (b :: s)) as [[[v r]|[]]| |]; cbn [bind]; try discriminate; [|contradiction].
    destruct (sd (b :: s)) as [[? ?]|]; discriminate. }
  destruct (is_punct b && _ && _ && _ && _); [destruct s as [|c s]; [discriminate|]; destruct (symbols b c); discriminate|].
  destruct (is_alpha b || (b =? 95)) eqn:A.
  { assert (U : lex_name kw false (b :: s) <> UB) by (apply name_safe; intros _; exists b, s; split; [reflexivity|]; unfold is_alpha, letter in *; lia). destruct (lex_name kw false (b :: s)) as [[? ?]| |]; [discriminate|discriminate|contradiction]. }
  destruct (b =? 96). { assert (U : lex_name kw true s <> UB) by (apply name_safe; discriminate). destruct (lex_name kw true s) as [[? ?]| |]; [discriminate|discriminate|contradiction]. }
  destruct ((b =? 34) || (b =? 39)); [|discriminate]. pose proof (string_safe b (S (length s)) false false s ltac:(lia)) as U. destruct (lex_string _ _ _ _ _) as [[? ?]| |]; [discriminate|discriminate|contradiction].
Qed.
Lemma all_safe f : forall text, bytes_ok text = true -> (length text < f)%nat -> lex_all sd f text <> UB.
Proof.
  induction f as [|f IH]; intros text B L; [lia|]. cbn [lex_all]. destruct (lex_next sd true text) as [[[t w0] r]| |] eqn:E; cbn [bind]; [|discriminate|now apply next_safe' in E].
  destruct (next_sound _ _ _ _ B E) as [(-> & _)|(g & w & -> & _ & G & Nw & Sp)]; [discriminate|].
  assert (Br : bytes_ok r = true) by (rewrite !bytes_ok_app in B; apply andb_prop in B as [_ B]; apply andb_prop in B; tauto).
  assert (Lr : (length r < f)%nat) by (rewrite !app_length in L; destruct w; [contradiction|]; cbn [length] in L; lia).
  specialize (IH r Br Lr). destruct t; try discriminate; (destruct (lex_all sd f r); [discriminate|discriminate|contradiction]).
Qed.
End Sound.

(** ** string literals *)
Lemma denotes_body es q s v : (forall e c, In (e, c) es -> 0 <= e < 128) -> denotes es q s v -> body q s.
Proof.
  intros E. induction 1 as [|c s v Hc N1 N2 _ IH|e c s v I _ IH]; [constructor|now constructor|]. specialize (E e c I).
  assert (Hc : code e) by (unfold code; lia). change (92 :: e :: s) with (92 :: [e] ++ s). rewrite <- (utf8_small e) by (assumption || lia). now constructor.
Qed.
Lemma most_range e c : In (e, c) most_escapes -> 0 <= e < 128.
Proof. cbn. intros H. repeat (destruct H as [H|H]; [injection H as <- _; lia|]). contradiction. Qed.
Lemma escape_step e c s : In (e, c) most_escapes -> unescape false (92 :: e :: s) = do r <- unescape false s; Ok (c :: r).
Proof. cbn [most_escapes sql_escapes filter fst Z.eqb Pos.eqb negb In]. intros H. repeat (destruct H as [H|H]; [injection H as <- <-; reflexivity|]). contradiction. Qed.
Lemma denotes_unescape q s v : denotes most_escapes q s v -> unescape false s = Ok v.
Proof.
  induction 1 as [|c s v Hc N1 N2 _ IH|e c s v I _ IH]; [reflexivity| |].
  - rewrite (unescape_plain (fun _ => None)) by now apply utf8_no92. now rewrite IH.
  - rewrite (escape_step e c) by exact I. now rewrite IH.
Qed.
Lemma denotes_same es q s v : denotes es q s v -> has92 s = false -> v = s.
Proof.
  induction 1 as [|c s v Hc N1 N2 _ IH|e c s v I _ IH]; intros H; [reflexivity| |].
  - rewrite has92_app in H. apply orb_false_elim in H as [_ H]. now rewrite IH.
  - discriminate H.
Qed.
Lemma denotes_value q s v : denotes most_escapes q s v -> string_value s (has92 s) = Ok v.
Proof.
  intros D. unfold string_value. destruct (has92 s) eqn:E; [eapply denotes_unescape; exact D|]. now rewrite (denotes_same _ _ _ _ D E).
Qed.
