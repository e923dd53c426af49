(** Scan, UnScan and positions. *)
From Coq Require Import List NArith ZArith Bool String Ascii Lia.
From Verif Require Import Base Token Scanner Lexing ScanRefine LexFacts LexSpec LexProofs.
Import ListNotations.
Open Scope N_scope.

(** ** When Scan reports an error *)
Definition nonempty (m : M str) : Prop := forall s x s', m s = (Ok x, s') -> x <> [].
Lemma bind_ok {A B} (m : M A) (f : A -> M B) s b s' :
  bind m f s = (Ok b, s') -> exists a s1, m s = (Ok a, s1) /\ f a s1 = (Ok b, s').
Proof. unfold bind. destruct (m s) as [[a|e| |] s1]; try discriminate. eauto. Qed.
Ltac bok H := apply bind_ok in H; let a := fresh "a" in let s := fresh "s" in let Q := fresh "Q" in destruct H as (a & s & Q & H).
Ltac retok H := unfold ret in H; injection H; clear H; intros; subst.

Lemma snoc_ne {A} (l : list A) x : l ++ x :: [] <> []. Proof. destruct l; discriminate. Qed.
Lemma app_ne {A} (l l' : list A) : l <> [] -> l ++ l' <> []. Proof. destruct l; [congruence|discriminate]. Qed.
Lemma ident_loop_ne n acc : acc <> [] -> nonempty (ident_loop n acc).
Proof.
  revert acc. induction n as [|n IH]; intros acc A s x s' H; cbn [ident_loop] in H; [discriminate|].
  bok H. destruct (_ || _).
  - bok H. eapply IH; [|exact H]. apply snoc_ne.
  - retok H. exact A.
Qed.
Lemma line_loop_ne n acc c : acc <> [] -> nonempty (line_loop n acc c).
Proof.
  revert acc c. induction n as [|n IH]; intros acc c A s x s' H; cbn [line_loop] in H; [discriminate|].
  destruct (c =? NL); [retok H; exact A|]. bok H. destruct a.
  - retok H. apply snoc_ne.
  - bok H. eapply IH; [|exact H]. apply snoc_ne.
Qed.
Lemma block_loop_ne n acc c : acc <> [] -> nonempty (block_loop n acc c).
Proof.
  revert acc c. induction n as [|n IH]; intros acc c A s x s' H; cbn [block_loop] in H; [discriminate|].
  bok H. destruct a; [discriminate|]. bok H. bok H. destruct (_ && _).
  - bok H. retok H. apply app_ne, snoc_ne.
  - eapply IH; [|exact H]. apply snoc_ne.
Qed.
Lemma digits_loop_ne n p acc : acc <> [] -> nonempty (digits_loop n p acc).
Proof.
  revert acc. induction n as [|n IH]; intros acc A s x s' H; cbn [digits_loop] in H; [discriminate|].
  bok H. destruct a; [retok H; exact A|]. bok H. destruct (negb (p a)); [retok H; exact A|].
  bok H. eapply IH; [|exact H]. apply snoc_ne.
Qed.
Lemma str_loop_ne n q acc c : acc <> [] -> nonempty (str_loop n q acc c).
Proof.
  revert acc c. induction n as [|n IH]; intros acc c A s x s' H; cbn [str_loop] in H; [discriminate|].
  destruct (c =? q).
  - bok H. retok H. apply snoc_ne.
  - bok H. bok H. eapply IH; [|exact H]. apply app_ne. exact A.
Qed.
Lemma scanNumberLit_ne s t x s' : scanNumberLit s = (Ok (t, x), s') -> x <> [].
Proof.
  unfold scanNumberLit. intros H. bok H. cbn zeta in H. bok H. destruct (_ && _).
  { bok H. bok H. destruct (negb _); [bok H; discriminate|]. bok H. bok H. bok H. retok H.
    eapply digits_loop_ne; [|exact Q5]. discriminate. }
  destruct (_ =? _). { bok H. retok H. discriminate. }
  destruct (_ =? _). { bok H. bok H. retok H. discriminate. }
  destruct (is_e _). { bok H. retok H. discriminate. }
  destruct (_ =? _). { bok H. bok H. retok H. eapply digits_loop_ne; [|exact Q2]. discriminate. }
  bok H. bok H. bok H. assert (a2 <> []) by (eapply digits_loop_ne; [|exact Q2]; discriminate).
  destruct (_ =? _). { bok H. bok H. retok H. apply app_ne. assumption. }
  destruct (is_e _). { bok H. retok H. apply app_ne. assumption. }
  retok H. assumption.
Qed.
Lemma scan_err : forall n s t x p e s', scan n s = (Ok (t, x, p, e), s') ->
  match e with Some _ => t = TILLEGAL /\ x = [] | None => t = TEOF \/ x <> [] end.
Proof.
  induction n as [|n IH]; intros s t x p e s' H; cbn [scan] in H; [discriminate|].
  bok H. bok H. destruct (isSpace a). { bok H. eapply IH; exact H. }
  bok H. destruct a1. { retok H. auto. }
  destruct (_ || _).
  { bok H. assert (a1 <> []).
    { unfold scanIdent in Q2. bok Q2. bok Q2. eapply ident_loop_ne; [|exact Q2]. discriminate. }
    bok H. destruct (_ && _); [retok H; auto|]. destruct (_ && _); [retok H; auto|]. destruct (_ && _); retok H; auto. }
  destruct (_ =? _).
  { unfold try in H. destruct (scanComment s2) as [[l|er| |] s3] eqn:Q2; try discriminate.
    - bok H. bok H. assert (l <> []).
      { unfold scanComment in Q2. bok Q2. bok Q2. bok Q2. destruct (_ =? _); [eapply line_loop_ne; [|exact Q2]; discriminate|].
        destruct (_ =? _); [eapply block_loop_ne; [|exact Q2]; discriminate|discriminate]. }
      destruct (has _ _); [retok H; auto|]. eapply IH; exact H.
    - retok H. auto. }
  bok H. destruct (_ && _).
  { unfold or_illegal, try in H. destruct (bind scanStrLit _ _) as [[[t' l]|er| |] s4] eqn:Q3; try discriminate; retok H; auto.
    bok Q3. retok Q3. right. unfold scanStrLit in Q4. bok Q4. bok Q4. bok Q4. eapply str_loop_ne; [|exact Q4]. discriminate. }
  destruct (_ && _).
  { unfold or_illegal, try in H. destruct (scanNumberLit _) as [[[t' l]|er| |] s4] eqn:Q3; try discriminate; retok H; auto.
    right. eapply scanNumberLit_ne; exact Q3. }
  bok H. retok H. right. discriminate.
Qed.

(** Scan on NUL-free input, with its error *)
Definition is_illegal (x : lexed) : Prop := lx_tok x = TILLEGAL /\ lx_txt x = [].
Theorem Scan_spec s : nonul (rest s) ->
  let x := lex (mode s) (rest s) in
  exists s' e,
    Scan s = (Ok (lx_tok x, lx_txt x, posafter (pos s) (lx_gap x), e), s') /\
    step (set_raw [] s) (lx_gap x ++ lx_raw x) (place (pos s) (lx_cms x)) s' /\
    rest s' = lx_rest x /\ (e = None <-> ~ is_illegal x).
Proof.
  intros N x. destruct (Scan_lex s N) as (s' & e & Q & S). fold x in Q, S. exists s', e.
  split; [exact Q|]. split; [exact S|]. split.
  - apply (rest_step _ _ _ _ _ S). cbn. rewrite <- app_assoc. apply lex_app.
  - unfold Scan in Q. bok Q. bok Q. apply scan_err in Q. unfold is_illegal. destruct e.
    + split; [discriminate|]. tauto.
    + split; [|reflexivity]. intros _ [A B]. destruct Q as [Q|Q]; [rewrite A in Q; discriminate|contradiction].
Qed.

(** ** UnScan *)
Lemma unread_padv c s p : pos s = padv p c -> (c = NL -> col_get (cols s) (Line p) = Column p) ->
  unread c s = set_pc (p, cols s) (set_rest (c :: rest s) s).
Proof. intros E H. unfold unread. rewrite E, Revert_padv by exact H. reflexivity. Qed.
Lemma unread_all w : forall s p, pos s = posafter p w ->
  (forall a b, w = a ++ NL :: b -> col_get (cols s) (Line (posafter p a)) = Column (posafter p a)) ->
  fold_left (fun s c => unread c s) (rev w) s = set_pc (p, cols s) (set_rest (w ++ rest s) s).
Proof.
  induction w as [|c w IH] using rev_ind; intros s p E H.
  - cbn. destruct s. cbn in *. subst. reflexivity.
  - rewrite rev_app_distr. cbn [rev app fold_left]. rewrite posafter_app in E. cbn in E.
    rewrite (unread_padv c s (posafter p w) E).
    + rewrite IH with (p := p).
      * cbn. rewrite <- app_assoc. reflexivity.
      * reflexivity.
      * intros a b ->. cbn. apply (H a (b ++ [c])). rewrite <- app_assoc. reflexivity.
    + intros ->. apply (H w []). reflexivity.
Qed.
Lemma UnScan_step s w cm s' : raw s = [] -> step s w cm s' ->
  UnScan s' = set_pc (pos s, cols s') (set_rest (rest s) s').
Proof.
  intros R [R1 W P C M K G]. unfold UnScan. rewrite W, R. cbn [app].
  rewrite (unread_all w s' (pos s) P (proj2 C)). rewrite R1. reflexivity.
Qed.

(** ** Positions counted directly *)
Lemma posafter_line_eq p w : Line (posafter p w) = (Line p + newlines w)%Z.
Proof.
  revert p. induction w as [|c w IH]; intros p; cbn [posafter fold_left].
  - unfold newlines. cbn. lia.
  - change (fold_left padv w (padv p c)) with (posafter (padv p c) w). rewrite IH. unfold newlines. cbn [count_occ].
    unfold padv. destruct (N.eqb_spec c NL) as [->|E]; cbn [Line].
    + destruct (N.eq_dec NL NL); [|congruence]. lia.
    + destruct (N.eq_dec c NL); [congruence|]. lia.
Qed.
Lemma posafter_column_eq p w : Column (posafter p w) = (1 + since_newline (Column p - 1) w)%Z.
Proof.
  revert p. induction w as [|c w IH]; intros p; cbn [posafter fold_left since_newline].
  - lia.
  - change (fold_left padv w (padv p c)) with (posafter (padv p c) w). rewrite IH. unfold padv.
    destruct (c =? NL); cbn [Column]; f_equal; f_equal; lia.
Qed.
Definition lens (w : list rune) : Z := fold_right (fun c n => (rune_len c + n)%Z) 0%Z w.
Lemma lens_app a b : lens (a ++ b) = (lens a + lens b)%Z.
Proof. induction a as [|c a IH]; cbn [app lens fold_right]; [reflexivity|]. fold (lens (a ++ b)) (lens a). lia. Qed.
Lemma posafter_offset_lens p w : Offset (posafter p w) = (Offset p + lens w)%Z.
Proof.
  revert p. induction w as [|c w IH]; intros p; cbn [posafter fold_left lens fold_right]; [lia|].
  change (fold_left padv w (padv p c)) with (posafter (padv p c) w). rewrite IH. fold (lens w).
  unfold padv. destruct (c =? NL); cbn [Offset]; lia.
Qed.
Lemma rune_len_bytes c : valid_rune c -> rune_len c = Z.of_nat (List.length (encode_rune c)).
Proof.
  intros H. unfold rune_len, encode_rune. destruct (N.ltb_spec c 128); [reflexivity|]. destruct (N.ltb_spec c 2048); [reflexivity|].
  unfold valid_rune in H. destruct (N.leb_spec 0xD800 c), (N.leb_spec c 0xDFFF); cbn [andb]; try lia;
  (destruct (N.ltb_spec c 65536); [reflexivity|]); destruct (N.leb_spec c 0x10FFFF); try reflexivity; lia.
Qed.
Lemma lens_bytes w : Forall valid_rune w -> lens w = utf8_bytes w.
Proof.
  unfold utf8_bytes. induction 1 as [|c w H F IH]; [reflexivity|]. cbn [lens fold_right flat_map]. fold (lens w).
  rewrite app_length, Nat2Z.inj_add, IH, (rune_len_bytes c H). reflexivity.
Qed.
