(** Printed names, option values and statements derive again (C44). *)
From Coq Require Import List NArith ZArith Bool String Ascii Lia.
From Verif Require Import Base Token Scanner Lexing ScanRefine LexFacts Ast LexSpec LexProofs ScanProps Grammar GramLex GramValues GramParts BareSpec Relay PrintSpec Print.
Import ListNotations.
Open Scope N_scope.

Lemma next_T ts x p : T ts x p -> next_tok ts = Some x.
Proof. intros H. rewrite next_toks, (T_toks _ _ _ H). reflexivity. Qed.
Lemma next_app a b x : next_tok a = Some x -> next_tok (a ++ b) = Some x.
Proof. rewrite !next_toks, toks_app. destruct (toks a); [discriminate|]. exact (fun H => H). Qed.
Lemma hd_app (a b : list str) x : hd_error a = Some x -> hd_error (a ++ b) = Some x.
Proof. destruct a; [discriminate|]. exact (fun H => H). Qed.
Lemma next_K ts x : K ts x -> next_tok ts = Some (lit x).
Proof. intros (p & H). exact (next_T _ _ _ H). Qed.

Definition knownb (s : string) : bool := identb (lit s) || match lit s with [c] => existsb (N.eqb c) puncts | _ => false end.
Lemma reads_kw s : knownb s = true -> Reads (lit s) [lit s].
Proof.
  intros H. apply reads_known. unfold knownb in H. apply orb_true_iff in H. destruct H as [H|H]; [left; apply identb_iff, H|right].
  destruct (lit s) as [|c [|]]; try discriminate. exists c. split; [reflexivity|]. apply existsb_exists in H. destruct H as (d & IN & E). apply N.eqb_eq in E. subst d. exact IN.
Qed.
Lemma words_known ws x : forallb knownb ws = true -> words ws x -> Reads x [x].
Proof. intros H W. unfold words in W. apply in_map_iff in W. destruct W as (w & <- & IN). apply reads_kw. rewrite forallb_forall in H. auto. Qed.
(** punctuation in front of text: anything but a dot *)
Lemma reads_punct_then s w xs : match lit s with [c] => existsb (N.eqb c) puncts && negb (c =? ch ".") | _ => false end = true ->
  Reads w xs -> Reads (lit s ++ w) (lit s :: xs).
Proof.
  destruct (lit s) as [|c [|]]; try discriminate. intros H HR. apply andb_true_iff in H. destruct H as [H D]. apply existsb_exists in H. destruct H as (d & IN & E). apply N.eqb_eq in E. subst d.
  apply reads_punct_app; [exact IN| |exact HR]. intros ->. discriminate.
Qed.
Lemma delim_lit s w : match lit s with c :: _ => negb (identChar c) && negb (c =? ch ".") | [] => false end = true -> delimited (lit s ++ w).
Proof.
  destruct (lit s) as [|c l]; [discriminate|]. intros H. apply andb_true_iff in H. destruct H as [A B]. cbn. split.
  - intros I. apply ident_char_iff in I. rewrite I in A. discriminate.
  - intros ->. discriminate.
Qed.
(** text in front of punctuation *)
Lemma reads_then s w xs w' xs' : match lit s with c :: _ => negb (identChar c) && negb (c =? ch ".") | [] => false end = true ->
  Reads w xs -> Reads (lit s ++ w') xs' -> Reads (w ++ lit s ++ w') (xs ++ xs').
Proof. intros H HR HR'. apply reads_app; [exact HR|exact HR'|]. intros r _. rewrite <- app_assoc. apply delim_lit, H. Qed.
Lemma reads_end s w xs : match lit s with c :: _ => negb (identChar c) && negb (c =? ch ".") | [] => false end = true ->
  Reads w xs -> Reads (lit s) [lit s] -> Reads (w ++ lit s) (xs ++ [lit s]).
Proof. intros H HR HR'. apply reads_app; [exact HR|exact HR'|]. intros r _. apply delim_lit, H. Qed.
(** an identifier in front of punctuation *)
Lemma reads_ident_then s x w xs : match lit s with c :: _ => negb (identChar c) | [] => false end = true ->
  is_ident x -> Reads (lit s ++ w) xs -> Reads (x ++ lit s ++ w) (x :: xs).
Proof.
  intros H I HR. apply reads_cons; [apply small_readable, ident_small, I| |exact HR]. intros r _. left. split; [exact I|].
  destruct (lit s) as [|c l]; [discriminate|]. cbn. intros C. apply ident_char_iff in C. rewrite C in H. discriminate.
Qed.
Definition starts (v : str) : Prop := exists c v', v = c :: v' /\ ~ digit c.
Lemma starts_no_digit v r : starts v -> no_digit (v ++ r).
Proof. intros (c & v' & -> & H). exact H. Qed.
Lemma reads_dot w xs : starts w -> Reads w xs -> Reads (lit "." ++ w) (lit "." :: xs).
Proof. intros S HR. apply (reads_punct_app (ch ".")); [cbn; tauto| |exact HR]. intros _ r _. apply starts_no_digit, S. Qed.
Lemma ident_starts x : is_ident x -> starts x.
Proof.
  intros (c & l & -> & H & _). exists c, l. split; [reflexivity|]. unfold digit. destruct H as [[H|H]|H]; try lia. rewrite H. vm_compute. intuition discriminate.
Qed.
Lemma starts_app a b : starts a -> starts (a ++ b).
Proof. intros (c & v & -> & H). exists c, (v ++ b). split; [reflexivity|exact H]. Qed.

Lemma FullIdent_print ts v p : FullIdent ts v p -> exists xs, Reads v xs /\ FullIdent (tk xs) v P0 /\ hd_error xs = next_tok ts /\ starts v /\ (exists x, hd_error xs = Some x /\ is_ident x).
Proof.
  induction 1 as [ts x p H I|ts x p td t2 v p' H I HD H2 IH].
  - exists [x]. split; [apply reads_ident, I|]. split; [apply fi_one; [apply T_tk|exact I]|]. rewrite (next_T _ _ _ H). split; [reflexivity|]. split; [apply ident_starts, I|].
    exists x. split; [reflexivity|exact I].
  - destruct IH as (xs & HR & HF & _ & ST & _). exists ([x] ++ [lit "."] ++ xs). split; [|split; [|split; [|split]]].
    + cbn [app]. change (x :: lit "." :: xs) with ([x] ++ lit "." :: xs). apply reads_ident_then; [reflexivity|exact I|]. apply reads_dot; assumption.
    + rewrite !tk_app. eapply fi_dot; [apply T_tk|exact I|apply K_tk|exact HF].
    + rewrite (next_app _ _ x); [reflexivity|]. exact (next_T _ _ _ H).
    + apply starts_app, ident_starts, I.
    + exists x. split; [reflexivity|exact I].
Qed.
Lemma MessageType_print ts v p : MessageType ts v p -> exists xs, Reads v xs /\ MessageType (tk xs) v P0 /\ hd_error xs = next_tok ts /\ xs <> [].
Proof.
  intros [ts0 v0 p0 H|td p0 ts0 v0 p1 HD H].
  - destruct (FullIdent_print _ _ _ H) as (xs & HR & HF & E & _ & x & Ex & _). exists xs. split; [exact HR|]. split; [constructor; exact HF|]. split; [exact E|]. intros ->. discriminate.
  - destruct (FullIdent_print _ _ _ H) as (xs & HR & HF & E & ST & _). exists ([lit "."] ++ xs). split; [apply reads_dot; assumption|].
    split; [rewrite tk_app; eapply mt_dot; [apply T_tk|exact HF]|]. split; [|discriminate]. rewrite (next_app _ _ (lit ".")); [reflexivity|]. exact (next_T _ _ _ HD).
Qed.
Lemma Type_print ts v p : Type_ ts v p -> exists xs, Reads v xs /\ Type_ (tk xs) v P0 /\ hd_error xs = next_tok ts /\ xs <> [].
Proof.
  intros [ts0 x p0 H W|ts0 v0 p0 H N].
  - exists [x]. split; [eapply words_known; [|exact W]; reflexivity|]. split; [apply ty_scalar; [apply T_tk|exact W]|]. rewrite (next_T _ _ _ H). split; [reflexivity|discriminate].
  - destruct (MessageType_print _ _ _ H) as (xs & HR & HF & E & NE). exists xs. split; [exact HR|]. split; [|split; [exact E|exact NE]].
    apply ty_message; [exact HF|]. eapply not_first_tk; eassumption.
Qed.
Lemma T_head x xs l : hd_error xs = Some x -> ~ words l x -> not_first (tk xs) l.
Proof. intros H N. unfold not_first. rewrite next_tk, H. exact N. Qed.

Section Parts.
Variables perm bic junk : bool.
Notation simple := (simple perm).

Definition brace (x : str) : Prop := x = lit "{".
Lemma str_no_brace x : is_str x -> x <> lit "{".
Proof. intros H. destruct (str_head x H) as (q & b & [->| ->] & -> & _); discriminate. Qed.
Lemma ident_no_brace x : is_ident x -> x <> lit "{".
Proof. intros (c & l & -> & H & _) E. injection E as -> _. apply ident_start_char, ident_char_iff in H. discriminate. Qed.
Lemma number_no_brace x : number x -> x <> lit "{".
Proof. intros H ->. eapply (num_not_punct (ch "{")); [exact H|]. cbn. tauto. Qed.
Lemma Constant_print ts v : Constant perm ts v -> simple ts ->
  exists xs, Reads v xs /\ Constant perm (tk xs) v /\ (exists x, hd_error xs = Some x /\ x <> lit "{") /\ (exists x, next_tok ts = Some x /\ x <> lit "{").
Proof.
  intros [ts0 x p P H I|ts0 xs p P H|ts0 x p H I|ts0 x p H W|ts0 v0 p H N|ts0 s p ts2 x p' H W H' I] S.
  - destruct (simple_T _ _ _ _ H S I) as [R _]. exists [x]. split; [apply reads_str; assumption|]. split; [eapply c_string; [exact P|apply T_tk|exact I]|].
    split; exists x; split; try reflexivity; try (exact (next_T _ _ _ H)); apply str_no_brace, I.
  - destruct (Strings_ok _ _ _ _ H S P) as (F & NE & NX). destruct xs as [|x xs]; [exfalso; apply NE; reflexivity|].
    destruct (joined_ok x xs F) as (A & B & C). exists [joined (x :: xs)]. split; [apply reads_str; assumption|]. split; [|split].
    + rewrite <- C at 2. eapply c_strings; [exact P|]. apply ss_one; [apply T_tk|exact A].
    + eexists. split; [reflexivity|]. apply str_no_brace, A.
    + exists x. split; [exact NX|]. apply str_no_brace. exact (okstr_str x (Forall_inv F)).
  - exists [x]. split; [apply reads_number, I|]. split; [eapply c_number; [apply T_tk|exact I]|].
    split; exists x; split; try reflexivity; try (exact (next_T _ _ _ H)); apply number_no_brace, I.
  - exists [x]. split; [eapply words_known; [|exact W]; reflexivity|]. split; [eapply c_bool; [apply T_tk|exact W]|].
    assert (D : x <> lit "{") by (destruct W as [<-|[<-|[]]]; discriminate).
    split; exists x; split; try reflexivity; try (exact (next_T _ _ _ H)); exact D.
  - destruct (FullIdent_print _ _ _ H) as (xs & HR & HF & E & _ & x & Ex & Ix). exists xs. split; [exact HR|]. split; [eapply c_name; [exact HF|eapply not_first_tk; eassumption]|].
    rewrite <- E, Ex. split; exists x; split; try reflexivity; apply ident_no_brace, Ix.
  - exists ([s] ++ [x]). split; [|split; [|split]].
    + destruct W as [<-|[<-|[]]]; (apply reads_punct_then; [reflexivity|apply reads_number, I]).
    + rewrite tk_app. eapply c_signed; [apply T_tk|exact W|apply T_tk|exact I].
    + exists s. split; [reflexivity|]. destruct W as [<-|[<-|[]]]; discriminate.
    + exists s. split; [apply next_app; exact (next_T _ _ _ H)|]. destruct W as [<-|[<-|[]]]; discriminate.
Qed.
Lemma NamePart_print ts v : NamePart perm ts v -> exists xs, Reads v xs /\ NamePart perm (tk xs) v /\ starts v.
Proof.
  intros [ts0 x p H I|t1 t2 v0 p t3 H1 H2 H3|t1 t2 t3 v0 p t4 P H1 H2 H3 H4].
  - exists [x]. split; [apply reads_ident, I|]. split; [eapply np_ident; [apply T_tk|exact I]|]. apply ident_starts, I.
  - destruct (FullIdent_print _ _ _ H2) as (xs & HR & HF & _). exists ([lit "("] ++ xs ++ [lit ")"]). split; [|split].
    + apply reads_punct_then; [reflexivity|]. apply reads_end; [reflexivity|exact HR|apply reads_kw; reflexivity].
    + rewrite !tk_app. eapply np_paren; [apply K_tk|exact HF|apply K_tk].
    + eexists _, _. split; [reflexivity|]. vm_compute. intuition discriminate.
  - destruct (FullIdent_print _ _ _ H3) as (xs & HR & HF & _ & ST & _). exists ([lit "("] ++ [lit "."] ++ xs ++ [lit ")"]). split; [|split].
    + change (lit "(." ++ v0 ++ lit ")") with (lit "(" ++ (lit "." ++ (v0 ++ lit ")"))). apply reads_punct_then; [reflexivity|]. apply reads_dot; [apply starts_app, ST|].
      apply reads_end; [reflexivity|exact HR|apply reads_kw; reflexivity].
    + rewrite !tk_app. eapply np_dotted; [exact P|apply K_tk|apply K_tk|exact HF|apply K_tk].
    + eexists _, _. split; [reflexivity|]. vm_compute. intuition discriminate.
Qed.
(** a part of a name in front of a dot *)
Lemma NamePart_dot ts v : NamePart perm ts v -> forall w xs', starts w -> Reads w xs' ->
  exists xs, Reads (v ++ lit "." ++ w) (xs ++ lit "." :: xs') /\ NamePart perm (tk xs) v.
Proof.
  intros [ts0 x p H I|t1 t2 v0 p t3 H1 H2 H3|t1 t2 t3 v0 p t4 P H1 H2 H3 H4] w xs' SW HW; pose proof (reads_dot _ _ SW HW) as HD.
  - exists [x]. split; [|eapply np_ident; [apply T_tk|exact I]]. apply reads_ident_then; [reflexivity|exact I|exact HD].
  - destruct (FullIdent_print _ _ _ H2) as (xs & HR & HF & _). exists ([lit "("] ++ xs ++ [lit ")"]). split.
    + rewrite <- !app_assoc. apply reads_punct_then; [reflexivity|]. apply reads_then; [reflexivity|exact HR|]. apply (reads_punct_then ")"); [reflexivity|exact HD].
    + rewrite !tk_app. eapply np_paren; [apply K_tk|exact HF|apply K_tk].
  - destruct (FullIdent_print _ _ _ H3) as (xs & HR & HF & _ & ST & _). exists ([lit "("] ++ [lit "."] ++ xs ++ [lit ")"]). split.
    + change (lit "(." ++ v0 ++ lit ")") with (lit "(" ++ (lit "." ++ (v0 ++ lit ")"))). rewrite <- !app_assoc. apply reads_punct_then; [reflexivity|]. apply reads_dot; [apply starts_app, ST|].
      apply reads_then; [reflexivity|exact HR|]. apply (reads_punct_then ")"); [reflexivity|exact HD].
    + rewrite !tk_app. eapply np_dotted; [exact P|apply K_tk|apply K_tk|exact HF|apply K_tk].
Qed.
Lemma OptionName_print ts v : OptionName perm ts v -> exists xs, Reads v xs /\ OptionName perm (tk xs) v /\ starts v.
Proof.
  induction 1 as [ts v H|ts v td t2 v' H HD H2 IH].
  - destruct (NamePart_print _ _ H) as (xs & HR & HN & ST). exists xs. split; [exact HR|]. split; [constructor; exact HN|exact ST].
  - destruct IH as (xs' & HR' & HN' & ST'). destruct (NamePart_print _ _ H) as (_ & _ & _ & ST). destruct (NamePart_dot _ _ H _ _ ST' HR') as (xs & HR & HN).
    exists (xs ++ [lit "."] ++ xs'). split; [exact HR|]. split; [|apply starts_app, ST]. rewrite !tk_app. apply on_more; [exact HN|apply K_tk|exact HN'].
Qed.

Definition vprint (ts : list item) (v : str) : Prop := simple ts ->
  exists xs, Reads v xs /\ Value perm false (tk xs) v /\ (hd_error xs = Some (lit "{") <-> next_tok ts = Some (lit "{")) /\ (next_tok ts = Some (lit "{") -> exists v', v = lit "{" ++ v').
Lemma opens_tk ts xs o : (hd_error xs = Some (lit "{") <-> next_tok ts = Some (lit "{")) -> opens ts o -> opens (tk xs) o.
Proof. unfold opens. rewrite next_tk. intros E H. rewrite E. exact H. Qed.
Lemma sep_cases o x : separator o x -> exists s, x = lit s /\ (s = "," \/ s = ";")%string.
Proof. intros [-> |[-> _]]; eexists; split; try reflexivity; auto. Qed.
Lemma Value_print :
  (forall ts v, Value perm junk ts v -> vprint ts v) /\
  (forall ts v, Values perm junk ts v -> simple ts -> exists xs, Reads v xs /\ Values perm false (tk xs) v) /\
  (forall ts v, Entries perm junk ts v -> simple ts -> exists xs, Reads v xs /\ Entries perm false (tk xs) v /\ xs <> []) /\
  (forall o ts v, Entry perm junk o ts v -> simple ts -> exists xs, Reads v xs /\ Entry perm false o (tk xs) v).
Proof.
  apply Value_mutind.
  - intros ts v H S. destruct (Constant_print _ _ H S) as (xs & HR & HC & (x & Ex & Nx) & (y & Ey & Ny)). exists xs. split; [exact HR|]. split; [apply v_constant; exact HC|].
    rewrite Ex, Ey. split; [split; intros E; congruence|]. intros E. congruence.
  - intros t1 t2 P H1 H2 S. exists ([lit "{"] ++ [lit "}"]). split; [apply (reads_punct_then "{" (lit "}") [lit "}"]); [reflexivity|apply reads_kw; reflexivity]|].
    split; [rewrite tk_app; apply v_empty_message; [exact P|apply K_tk|apply K_tk]|]. rewrite (next_app _ _ _ (next_K _ _ H1)). split; [split; reflexivity|]. intros _. exists (lit "}"). reflexivity.
  - intros t1 ts v P H1 H IH S. apply simple_app in S. destruct (IH (proj2 S)) as (xs & HR & HE & _). exists ([lit "{"] ++ xs). split; [apply reads_punct_then; [reflexivity|exact HR]|].
    split; [rewrite tk_app; apply v_message; [exact P|apply K_tk|exact HE]|]. rewrite (next_app _ _ _ (next_K _ _ H1)). split; [split; reflexivity|]. intros _. exists v. reflexivity.
  - intros t1 t2 P H1 H2 S. exists ([lit "["] ++ [lit "]"]). split; [apply (reads_punct_then "[" (lit "]") [lit "]"]); [reflexivity|apply reads_kw; reflexivity]|].
    split; [rewrite tk_app; apply v_empty_list; [exact P|apply K_tk|apply K_tk]|]. rewrite (next_app _ _ _ (next_K _ _ H1)). split; [split; discriminate|]. discriminate.
  - intros t1 ts v t2 x p P H1 H IH H2 J S. apply simple_app in S. destruct S as [_ S]. apply simple_app in S. destruct (IH (proj1 S)) as (xs & HR & HV).
    exists ([lit "["] ++ xs ++ [lit "]"]). split; [apply reads_punct_then; [reflexivity|apply reads_end; [reflexivity|exact HR|apply reads_kw; reflexivity]]|].
    split; [rewrite !tk_app; eapply v_list; [exact P|apply K_tk|exact HV|apply T_tk|right; reflexivity]|]. rewrite (next_app _ _ _ (next_K _ _ H1)). split; [split; discriminate|]. discriminate.
  - intros ts v _ IH S. destruct (IH S) as (xs & HR & HV & _). exists xs. split; [exact HR|]. constructor. exact HV.
  - intros ts v td t2 v' _ IH HD _ IH' S. apply simple_app in S. destruct S as [S S']. apply simple_app in S'. destruct (IH S) as (xs & HR & HV & _). destruct (IH' (proj2 S')) as (xs' & HR' & HV').
    exists (xs ++ [lit ","] ++ xs'). split; [apply reads_then; [reflexivity|exact HR|]; apply (reads_punct_then ","); [reflexivity|exact HR']|].
    rewrite !tk_app. apply vs_more; [exact HV|apply K_tk|exact HV'].
  - intros o ts v t _ IH HK S. apply simple_app in S. destruct (IH (proj1 S)) as (xs & HR & HE). exists (xs ++ [lit "}"]).
    split; [apply reads_end; [reflexivity|exact HR|apply reads_kw; reflexivity]|]. split; [rewrite tk_app; eapply e_last; [exact HE|apply K_tk]|]. destruct xs; discriminate.
  - intros o ts v t x p t' _ IH HT SEP HK S. apply simple_app in S. destruct (IH (proj1 S)) as (xs & HR & HE). exists (xs ++ [x] ++ [lit "}"]).
    split; [|split; [rewrite !tk_app; eapply e_last_sep; [exact HE|apply T_tk|exact SEP|apply K_tk]|destruct xs; discriminate]].
    destruct (sep_cases _ _ SEP) as (s & -> & [-> | ->]); (apply reads_then; [reflexivity|exact HR|apply reads_punct_then; [reflexivity|apply reads_kw; reflexivity]]).
  - intros o ts v t x p t' v' _ IH HT SEP _ IH' S. apply simple_app in S. destruct S as [S S']. apply simple_app in S'. destruct (IH S) as (xs & HR & HE). destruct (IH' (proj2 S')) as (xs' & HR' & HE' & NE).
    exists (xs ++ [x] ++ xs'). split; [|split; [rewrite !tk_app; eapply e_more_sep; [exact HE|apply T_tk|exact SEP|exact HE']|destruct xs; discriminate]].
    destruct (sep_cases _ _ SEP) as (s & -> & [-> | ->]); (apply reads_then; [reflexivity|exact HR|apply reads_punct_then; [reflexivity|exact HR']]).
  - intros o ts v t' v' _ IH _ IH' S. apply simple_app in S. destruct S as [S S']. destruct (IH S) as (xs & HR & HE). destruct (IH' S') as (xs' & HR' & HE' & NE).
    exists (xs ++ xs'). split; [|split; [rewrite tk_app; eapply e_more; [exact HE|exact HE']|destruct xs; [exact NE|discriminate]]].
    apply reads_app; [exact HR| |].
    + apply (reads_space NL); [reflexivity|split; [left; vm_compute; reflexivity|discriminate]|exact NE|exact HR'].
    + intros r _. cbn. split; [intros C; apply ident_char_iff in C; discriminate|discriminate].
  - intros t1 x p t2 t3 v o HT I HK _ IH OP S. apply simple_app in S. destruct S as [_ S]. apply simple_app in S. destruct (IH (proj2 S)) as (xs & HR & HV & EX & _).
    exists ([x] ++ [lit ":"] ++ xs). split; [apply reads_ident_then; [reflexivity|exact I|apply (reads_punct_then ":"); [reflexivity|exact HR]]|].
    rewrite !tk_app. eapply en_colon; [apply T_tk|exact I|apply K_tk|exact HV|eapply opens_tk; eassumption].
  - intros t1 x p t2 t3 v t4 HT I HK _ IH OP HK4 S. apply simple_app in S. destruct S as [_ S]. apply simple_app in S. destruct S as [_ S]. apply simple_app in S. destruct (IH (proj1 S)) as (xs & HR & HV & EX & _).
    exists ([x] ++ [lit ":"] ++ xs ++ [lit ";"]). split; [apply reads_ident_then; [reflexivity|exact I|apply (reads_punct_then ":"); [reflexivity|apply reads_end; [reflexivity|exact HR|apply reads_kw; reflexivity]]]|].
    rewrite !tk_app. eapply en_colon_semi; [apply T_tk|exact I|apply K_tk|exact HV|eapply opens_tk; eassumption|apply K_tk].
  - intros t1 x p t2 v HT I _ IH OP S. apply simple_app in S. destruct (IH (proj2 S)) as (xs & HR & HV & EX & ST).
    assert (OPN : next_tok t2 = Some (lit "{")) by (apply OP; reflexivity). destruct (ST OPN) as (v' & ->).
    exists ([x] ++ xs). split; [apply reads_ident_then; [reflexivity|exact I|exact HR]|]. rewrite tk_app. eapply en_message; [apply T_tk|exact I|exact HV|eapply opens_tk; eassumption].
Qed.
Definition V_print ts v (H : Value perm junk ts v) : vprint ts v := proj1 Value_print ts v H.
End Parts.
