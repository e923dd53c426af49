(** Printed words read as the tokens of the grammar again (C44). *)
From Coq Require Import List NArith ZArith Bool String Ascii Lia.
From Verif Require Import Base Token Scanner ScanRefine Ast LexSpec ScanProps Grammar GramLex GramValues GramParts BareSpec Relay PrintSpec.
Import ListNotations.
Open Scope N_scope.

(** ** Readable tokens *)
Lemma small_readable x : Forall (fun c => 0 < c < 128) x -> readable x.
Proof. apply Forall_impl. intros c [A B]. split; [left; lia|lia]. Qed.
Definition small (c : rune) : Prop := 0 < c < 128.
Lemma ident_char_small c : ident_char c -> small c.
Proof. unfold ident_char, letter, digit, underscore, small, ch. intros [[H|H]|[H|H]]; try lia. subst c. cbn. lia. Qed.
Lemma ident_start_char c : ident_start c -> ident_char c.
Proof. intros [H|H]; [left|right; right]; exact H. Qed.
Lemma ident_small x : is_ident x -> Forall small x.
Proof.
  intros (c & l & -> & H & F). constructor; [apply ident_char_small, ident_start_char, H|]. eapply Forall_impl; [|exact F]. exact ident_char_small.
Qed.
Lemma digits_small l : Forall digit l -> Forall small l.
Proof. apply Forall_impl. unfold digit, small. intros; lia. Qed.
Lemma int_small x : is_int x -> Forall small x.
Proof.
  intros [(c & l & -> & H & F)|[(l & -> & F)|(e & l & -> & H & _ & F)]].
  - constructor; [unfold small; lia|]. apply digits_small, F.
  - constructor; [vm_compute; auto|]. eapply Forall_impl; [|exact F]. unfold octal_digit, small. intros; lia.
  - constructor; [vm_compute; auto|]. constructor; [destruct H as [-> | ->]; vm_compute; auto|]. eapply Forall_impl; [|exact F].
    unfold hex_digit, digit, small. intros; lia.
Qed.
Lemma decimals_small x : decimals x -> Forall small x.
Proof. intros [_ F]. apply digits_small, F. Qed.
Lemma exponent_small x : exponent x -> Forall small x.
Proof.
  intros (e & sg & d & -> & H & S & D). constructor; [destruct H as [-> | ->]; vm_compute; auto|]. apply Forall_app. split; [|apply decimals_small, D].
  destruct S as [-> | [-> | ->]]; repeat constructor.
Qed.
Lemma opt_small (P : str -> Prop) x : (forall y, P y -> Forall small y) -> opt P x -> Forall small x.
Proof. intros H [-> |X]; [constructor|auto]. Qed.
Lemma plain_small x : plain_decimals x -> Forall small x.
Proof. intros [-> |(c & l & -> & H & F)]; [repeat constructor|]. constructor; [unfold small; lia|]. apply digits_small, F. Qed.
Lemma float_small x : is_plain_float x -> Forall small x.
Proof.
  intros [a b e A B E|a e A E|b e B E| |]; rewrite ?Forall_app;
    repeat split; eauto using plain_small, opt_small, decimals_small, exponent_small; repeat constructor.
Qed.
Lemma number_small x : number x -> Forall small x.
Proof. intros [H|H]; [apply int_small|apply float_small]; exact H. Qed.
Lemma words_small ws x : forallb (fun w => forallb (fun c => (0 <? c) && (c <? 128)) (lit w)) ws = true -> words ws x -> Forall small x.
Proof.
  intros H W. unfold words in W. apply in_map_iff in W. destruct W as (w & <- & IN). rewrite forallb_forall in H. specialize (H _ IN). rewrite forallb_forall in H.
  apply Forall_forall. intros c IC. specialize (H _ IC). apply andb_true_iff in H. destruct H as [A B]. apply N.ltb_lt in A, B. split; assumption.
Qed.

(** ** Text as white space and tokens *)
Definition flat (l : list (str * str)) : list rune := flat_map (fun p => fst p ++ snd p) l.
Fixpoint fine (l : list (str * str)) (r : list rune) : Prop :=
  match l with [] => True | (s, x) :: l => Spaces s /\ token_at true x (flat l ++ r) /\ fine l r end.
Lemma flat_app a b : flat (a ++ b) = flat a ++ flat b.
Proof. apply flat_map_app. Qed.
Lemma fine_app a b r : fine (a ++ b) r <-> fine a (flat b ++ r) /\ fine b r.
Proof.
  induction a as [|[s x] a IH]; cbn [app fine]; [tauto|]. rewrite flat_app, <- app_assoc, IH. tauto.
Qed.
Definition P0 : mpos := mkPos [] 0 0 0.
Definition tk (xs : list str) : list item := map (fun x => Tok x P0) xs.
Fixpoint set_at (p : mpos) (l : list (str * str)) : list item :=
  match l with [] => [] | (s, x) :: l => Tok x (posafter p s) :: set_at (posafter p (s ++ x)) l end.
Lemma fine_lay its p' r' : forall l p r, fine l r -> Lay true (posafter p (flat l)) r its p' r' -> Lay true p (flat l ++ r) (set_at p l ++ its) p' r'.
Proof.
  induction l as [|[s x] l IH]; intros p r H HL; [exact HL|]. destruct H as (S & X & H). cbn [flat flat_map fst snd set_at app] in *. fold (flat l) in *.
  rewrite <- !app_assoc. apply lay_tok; [exact S|exact X|]. apply IH; [exact H|]. rewrite <- posafter_app. exact HL.
Qed.
Lemma toks_set l : forall p, toks (set_at p l) = map snd l.
Proof. induction l as [|[s x] l IH]; intros p; [reflexivity|]. cbn [set_at toks map snd]. f_equal. apply IH. Qed.
Lemma com_set l c q : forall p, ~ In (Com c q) (set_at p l).
Proof. induction l as [|[s x] l IH]; intros p; [intros []|]. cbn [set_at]. intros [H|H]; [discriminate|]. exact (IH _ H). Qed.

(** the text [w] reads as the tokens [xs] in front of a delimiter *)
Definition Reads (w : str) (xs : list str) : Prop :=
  readable w /\ exists l, flat l = w /\ map snd l = xs /\ forall r, delimited r -> fine l r.
Lemma delim_no_digit r : delimited r -> no_digit r.
Proof. destruct r; [exact (fun H => H)|]. intros [H _] D. apply H. right. left. exact D. Qed.
Lemma reads_nil : Reads [] [].
Proof. split; [constructor|]. exists []. repeat split. Qed.
(** a token in front of more text *)
Lemma reads_cons x w xs : readable x -> (forall r, delimited r -> token_at true x (w ++ r)) -> Reads w xs -> Reads (x ++ w) (x :: xs).
Proof.
  intros RX H (RW & l & <- & <- & F). split; [apply readable_app; split; assumption|]. exists (([], x) :: l). split; [reflexivity|]. split; [reflexivity|].
  intros r D. cbn [fine]. split; [constructor|]. split; [apply H, D|apply F, D].
Qed.
Lemma reads_app w1 xs1 w2 xs2 : Reads w1 xs1 -> Reads w2 xs2 -> (forall r, delimited r -> delimited (w2 ++ r)) -> Reads (w1 ++ w2) (xs1 ++ xs2).
Proof.
  intros (R1 & l1 & <- & <- & F1) (R2 & l2 & <- & <- & F2) D. split; [apply readable_app; split; assumption|]. exists (l1 ++ l2).
  rewrite flat_app, map_app. split; [reflexivity|]. split; [reflexivity|]. intros r HR. apply fine_app. split; [apply F1, D, HR|apply F2, HR].
Qed.
Lemma reads_space c w xs : isSpace c = true -> valid_rune c /\ c <> 0 -> xs <> [] -> Reads w xs -> Reads (c :: w) xs.
Proof.
  intros SP V N (R & l & <- & <- & F). split; [constructor; assumption|]. destruct l as [|[s x] l]; [exfalso; apply N; reflexivity|].
  exists ((c :: s, x) :: l). split; [reflexivity|]. split; [reflexivity|]. intros r D. specialize (F r D). cbn [fine] in *. destruct F as (S & X & F).
  split; [constructor; assumption|]. split; assumption.
Qed.
Lemma reads_one x : readable x -> (forall r, delimited r -> token_at true x r) -> Reads x [x].
Proof. intros R H. rewrite <- (app_nil_r x) at 1. apply reads_cons; [exact R|exact H|exact reads_nil]. Qed.
Lemma tok_ident x r : is_ident x -> delimited r -> token_at true x r.
Proof. intros H D. left. split; [exact H|apply delim_no_ident, D]. Qed.
Lemma reads_ident x : is_ident x -> Reads x [x].
Proof. intros H. apply reads_one; [apply small_readable, ident_small, H|]. intros r D. apply tok_ident; assumption. Qed.
Lemma reads_number x : number x -> Reads x [x].
Proof. intros H. apply reads_one; [apply small_readable, number_small, H|]. intros r D. right. left. split; assumption. Qed.
Lemma reads_int x : is_int x -> Reads x [x].
Proof. intros H. apply reads_number. left. exact H. Qed.
Lemma punct_readable c : In c puncts -> readable [c].
Proof.
  intros H. constructor; [|constructor]. revert c H. apply Forall_forall. unfold puncts. rewrite Forall_app. split.
  - apply (small_readable (lit ";:=(){}[]<>,.-+")). vm_compute. repeat constructor.
  - repeat constructor; try discriminate; vm_compute; intuition discriminate.
Qed.
Lemma tok_punct c r : In c puncts -> (c = ch "." -> no_digit r) -> token_at true [c] r.
Proof. intros H D. right. right. right. exists c. auto. Qed.
Lemma reads_punct_app c w xs : In c puncts -> (c = ch "." -> forall r, delimited r -> no_digit (w ++ r)) -> Reads w xs -> Reads ([c] ++ w) ([c] :: xs).
Proof. intros H D HR. apply reads_cons; [apply punct_readable, H|intros r DR; apply tok_punct; auto|exact HR]. Qed.
Lemma reads_punct c : In c puncts -> Reads [c] [[c]].
Proof. intros H. apply reads_one; [apply punct_readable, H|]. intros r D. apply tok_punct; [exact H|]. intros _. apply delim_no_digit, D. Qed.
Lemma reads_str x : is_str x -> readable x -> Reads x [x].
Proof. intros H R. apply reads_one; [exact R|]. intros r D. right. right. left. exact H. Qed.

(** a keyword or punctuation *)
Definition known (x : str) : Prop := is_ident x \/ exists c, x = [c] /\ In c puncts.
Lemma reads_known x : known x -> Reads x [x].
Proof. intros [H|(c & -> & H)]; [apply reads_ident, H|apply reads_punct, H]. Qed.

(** words, each followed by a space *)
Inductive Texts : list str -> list str -> Prop :=
| texts_nil : Texts [] []
| texts_cons w ws xs ys : Reads w xs -> Texts ws ys -> Texts (w :: ws) (xs ++ ys).
Lemma texts_app a xs b ys : Texts a xs -> Texts b ys -> Texts (a ++ b) (xs ++ ys).
Proof. induction 1 as [|w ws x1 x2 H HT IH]; intros HB; [exact HB|]. cbn [app]. rewrite <- app_assoc. constructor; auto. Qed.
Lemma texts_one w xs : Reads w xs -> Texts [w] xs.
Proof. intros H. rewrite <- (app_nil_r xs). constructor; [exact H|constructor]. Qed.
Lemma texts_tok w ws ys : Reads w [w] -> Texts ws ys -> Texts (w :: ws) (w :: ys).
Proof. intros H HT. apply (texts_cons w ws [w] ys); assumption. Qed.
Lemma texts_readable ws xs : Texts ws xs -> readable (spaced ws).
Proof.
  induction 1 as [|w ws x1 x2 H HT IH]; [constructor|]. cbn [spaced flat_map]. apply readable_app. split; [|exact IH]. apply readable_app. split; [exact (proj1 H)|].
  repeat constructor; discriminate.
Qed.
Lemma texts_layout ws xs : Texts ws xs -> forall sp p, Spaces sp ->
  exists its, Layout true p (sp ++ spaced ws) its /\ toks its = xs /\ forall c q, ~ In (Com c q) its.
Proof.
  induction 1 as [|w ws x1 x2 H HT IH]; intros sp p SP.
  - exists []. split; [|split; [reflexivity|intros c q []]]. exists p, sp. cbn [spaced flat_map]. rewrite app_nil_r. split; [constructor|exact SP].
  - destruct H as (_ & l & <- & <- & F).
    destruct l as [|[s x] l].
    + destruct (IH (sp ++ lit " ") p) as (its & LY & E & N); [apply Forall_app; split; [exact SP|repeat constructor]|].
      exists its. split; [|split; assumption]. cbn [spaced flat_map flat app] in *. rewrite <- app_assoc in LY. exact LY.
    + set (l0 := (sp ++ s, x) :: l).
      assert (F0 : fine l0 (lit " " ++ spaced ws)).
      { specialize (F (lit " " ++ spaced ws)). cbn [fine] in F. destruct F as (S & X & F).
        - cbn. split; [|discriminate]. unfold ident_char, letter, digit, underscore. intros H. change (ch "_") with 95 in H. lia.
        - cbn [fine l0]. split; [apply Forall_app; split; assumption|]. split; assumption. }
      destruct (IH (lit " ") (posafter p (flat l0))) as (its & (p' & sp' & LY & SP') & E & N); [repeat constructor|].
      exists (set_at p l0 ++ its). split; [|split].
      * exists p', sp'. split; [|exact SP']. pose proof (fine_lay _ _ _ l0 p _ F0 LY) as X. cbn [spaced flat_map flat fst snd l0 app] in *.
        rewrite <- !app_assoc in *. exact X.
      * rewrite toks_app, toks_set, E. reflexivity.
      * intros c q IN. apply in_app_or in IN. destruct IN as [IN|IN]; [exact (com_set _ _ _ _ IN)|exact (N _ _ IN)].
Qed.

(** ** Items without positions *)
Lemma tk_app a b : tk (a ++ b) = tk a ++ tk b. Proof. apply map_app. Qed.
Lemma T_tk x : T (tk [x]) x P0. Proof. exists []. reflexivity. Qed.
Lemma K_tk x : K (tk [lit x]) x. Proof. exists P0. apply T_tk. Qed.
Lemma toks_tk xs : toks (tk xs) = xs.
Proof. induction xs as [|x xs IH]; [reflexivity|]. cbn [tk map toks]. f_equal. exact IH. Qed.
Lemma next_tk xs : next_tok (tk xs) = hd_error xs. Proof. destruct xs; reflexivity. Qed.
Lemma first_tk xs : first_tok (tk xs) = option_map (fun x => (x, P0)) (hd_error xs). Proof. destruct xs; reflexivity. Qed.
Lemma last_tk xs x : last_tok (tk (xs ++ [x])) = Some (x, P0).
Proof. rewrite tk_app. apply (T_last (tk [x])). apply T_tk. Qed.
Lemma no_com_tk xs : no_com (tk xs). Proof. destruct xs; exact I. Qed.
Lemma inline_tk xs l : Inline l None (tk xs). Proof. destruct xs; exact I. Qed.
Lemma not_first_tk ts xs l : hd_error xs = next_tok ts -> not_first ts l -> not_first (tk xs) l.
Proof. unfold not_first. rewrite next_tk. intros ->. exact (fun H => H). Qed.

(** ** String literals *)
Definition other (q : rune) : rune := if q =? SQ then DQ else SQ.
(** no quote of the other kind, and no escaped quote at the end *)
Definition okstr (x : str) : Prop :=
  exists q b, (q = SQ \/ q = DQ) /\ x = [q] ++ b ++ [q] /\ str_body q b /\ ~ In (other q) b /\ (forall a, b <> a ++ [q]) /\ readable b.
Definition simple (perm : bool) (ts : list item) : Prop := forall x, In x (toks ts) -> is_str x -> readable x /\ (perm = true -> okstr x).
Lemma simple_app perm a b : simple perm (a ++ b) <-> simple perm a /\ simple perm b.
Proof.
  unfold simple. rewrite toks_app. split; [intros H; split; intros x IN; apply H, in_or_app; auto|].
  intros [A B] x IN. apply in_app_or in IN. destruct IN; auto.
Qed.
Lemma quote_readable q : q = SQ \/ q = DQ -> readable [q].
Proof. intros [-> | ->]; repeat constructor; discriminate. Qed.
Lemma okstr_str x : okstr x -> is_str x.
Proof. intros (q & b & Q & -> & B & _). exists q, b. auto. Qed.
Lemma simple_T perm ts x p : T ts x p -> simple perm ts -> is_str x -> readable x /\ (perm = true -> okstr x).
Proof. intros H S I. apply S; [|exact I]. rewrite (T_toks _ _ _ H). left. reflexivity. Qed.
Lemma body_app q a b : str_body q a -> str_body q b -> str_body q (a ++ b).
Proof. induction 1; intros HB; [exact HB| |]; cbn [app]; [apply sb_plain|apply sb_esc]; auto. Qed.
Lemma body_other q q' b : str_body q b -> ~ In q' b -> str_body q' b.
Proof.
  induction 1 as [|c b A B C D H IH|c b C D H IH]; intros N; [constructor| |].
  - apply sb_plain; [intros ->; apply N; left; reflexivity|assumption|assumption|assumption|]. apply IH. intros IN. apply N. right. exact IN.
  - apply sb_esc; [assumption|assumption|]. apply IH. intros IN. apply N. right. right. exact IN.
Qed.
(** neither starts nor ends with [q] *)
Definition bare_ends (q : rune) (b : str) : Prop := (forall a, b <> q :: a) /\ (forall a, b <> a ++ [q]).
Lemma drop_none q x : (forall a, x <> q :: a) -> drop_quotes q x = x.
Proof. destruct x as [|c x]; [reflexivity|]. intros N. cbn [drop_quotes]. destruct (c =? q) eqn:E; [|reflexivity]. apply N.eqb_eq in E. subst c. exfalso. eapply N. reflexivity. Qed.
Lemma strip_none q x : bare_ends q x -> strip q x = x.
Proof.
  intros [A B]. unfold strip. rewrite (drop_none q x A). rewrite drop_none; [apply rev_involutive|]. intros a E. apply (f_equal (@rev _)) in E. rewrite rev_involutive in E. cbn in E. exact (B _ E).
Qed.
Lemma strip_own q b : bare_ends q b -> strip q ([q] ++ b ++ [q]) = b.
Proof.
  intros [A B]. unfold strip. cbn [app drop_quotes]. rewrite N.eqb_refl. destruct b as [|c b]; [cbn; rewrite N.eqb_refl; reflexivity|].
  rewrite (drop_none q ((c :: b) ++ [q])) by (intros a E; injection E as -> _; eapply A; reflexivity).
  rewrite rev_app_distr. cbn [rev app drop_quotes]. rewrite N.eqb_refl. change (rev b ++ [c]) with (rev (c :: b)). rewrite drop_none; [apply rev_involutive|].
  intros a E. apply (f_equal (@rev _)) in E. rewrite rev_involutive in E. cbn in E. exact (B _ E).
Qed.
Lemma ends_bare q a b : bare_ends q a -> bare_ends q b -> bare_ends q (a ++ b).
Proof.
  intros [A1 A2] [B1 B2]. split.
  - destruct a as [|c a]; [exact B1|]. intros l E. injection E as -> _. eapply A1. reflexivity.
  - intros l E. destruct (rev b) as [|c r] eqn:R; apply (f_equal (@rev _)) in R; rewrite rev_involutive in R; subst b; [rewrite app_nil_r in E; exact (A2 _ E)|].
    cbn [rev] in *. rewrite app_assoc in E. apply app_inj_tail in E. destruct E as [_ ->]. eapply B2. reflexivity.
Qed.
Lemma body_start q b : str_body q b -> q <> backslash -> forall a, b <> q :: a.
Proof. intros [|c b' A|c b' A] N a E; [discriminate|injection E as -> _; contradiction|injection E as E _; congruence]. Qed.
Lemma okstr_strip q x : q = SQ \/ q = DQ -> okstr x -> str_body q (strip q x) /\ bare_ends q (strip q x) /\ readable (strip q x).
Proof.
  intros Q (q' & b & Q' & -> & B & NO & NE & R).
  destruct (N.eq_dec q' q) as [-> |D].
  - assert (BE : bare_ends q b) by (split; [eapply body_start; [exact B|destruct Q as [-> | ->]; discriminate]|exact NE]).
    rewrite strip_own by exact BE. auto.
  - assert (NQ : ~ In q b) by (destruct Q as [-> | ->], Q' as [-> | ->]; try contradiction; exact NO).
    assert (BE : bare_ends q ([q'] ++ b ++ [q'])).
    { split; intros a E.
      - injection E as -> _. apply D. reflexivity.
      - rewrite app_assoc in E. apply app_inj_tail in E. destruct E as [_ ->]. apply D. reflexivity. }
    rewrite strip_none by exact BE. split; [|split; [exact BE|]].
    + assert (S1 : str_body q [q']).
      { constructor; [exact D| | | |constructor]; destruct Q' as [-> | ->]; discriminate. }
      apply body_app; [exact S1|]. apply body_app; [|exact S1]. eapply body_other; eassumption.
    + apply readable_app. split; [apply quote_readable, Q'|]. apply readable_app. split; [exact R|apply quote_readable, Q'].
Qed.
Lemma okstr_quote x xs : okstr x -> first_quote (x :: xs) = SQ \/ first_quote (x :: xs) = DQ.
Proof. intros (q & b & Q & -> & _). exact Q. Qed.
Lemma joined_ok x xs : Forall okstr (x :: xs) -> is_str (joined (x :: xs)) /\ readable (joined (x :: xs)) /\ joined [joined (x :: xs)] = joined (x :: xs).
Proof.
  intros F. pose proof (okstr_quote x xs (Forall_inv F)) as Q. unfold joined. set (q := first_quote (x :: xs)) in *.
  assert (H : str_body q (flat_map (strip q) (x :: xs)) /\ bare_ends q (flat_map (strip q) (x :: xs)) /\ readable (flat_map (strip q) (x :: xs))).
  { clear -F Q. clearbody q. induction F as [|y ys H HF IH].
    - split; [constructor|]. split; [split; intros a E; destruct a; discriminate|constructor].
    - cbn [flat_map]. destruct IH as (A & B & C). destruct (okstr_strip q y Q H) as (A' & B' & C'). split; [apply body_app; assumption|]. split.
      + apply ends_bare; assumption.
      + apply readable_app. split; assumption. }
  destruct H as (A & B & C). set (b := flat_map (strip q) (x :: xs)) in *. clearbody b. split; [exists q, b; auto|]. split.
  - apply readable_app. split; [apply quote_readable, Q|]. apply readable_app. split; [exact C|apply quote_readable, Q].
  - change (first_quote [[q] ++ b ++ [q]]) with q. cbn [flat_map]. rewrite strip_own by exact B. rewrite app_nil_r. reflexivity.
Qed.
Lemma Strings_ok perm ts xs p : Strings ts xs p -> simple perm ts -> perm = true -> Forall okstr xs /\ xs <> [] /\ next_tok ts = hd_error xs.
Proof.
  intros H. induction H as [ts x p H I|ts x p t2 xs p' H I H2 IH]; intros S P.
  - split; [constructor; [exact (proj2 (simple_T _ _ _ _ H S I) P)|constructor]|]. split; [discriminate|]. rewrite next_toks, (T_toks _ _ _ H). reflexivity.
  - apply simple_app in S. destruct S as [S1 S2]. destruct (IH S2 P) as (F & _ & _). split; [constructor; [exact (proj2 (simple_T _ _ _ _ H S1 I) P)|exact F]|]. split; [discriminate|].
    rewrite next_toks, toks_app, (T_toks _ _ _ H). reflexivity.
Qed.
