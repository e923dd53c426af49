(** The un-read buffer of the scanner as it is in the code: a stack of runes in
    front of the reader (lexer/scanner/scanner.go:19-20, 56-91, 94-103).  The
    model in Scanner.v has the single list [rest]; this file proves that the
    two agree for every sequence of operations. *)
From Coq Require Import List NArith ZArith Bool Lia.
From Verif Require Import Base Token Scanner.
Import ListNotations.
Open Scope N_scope.

(** [lastReadBuffer] (its last element is the top) and the runes the
    bufio.Reader still has; [lastScanRaw], [pos] and [columns]. *)
Record buffered := mkBuf {
  lastReadBuffer : list rune; reader : list rune;
  b_raw : list rune; b_pc : mpos * colmap }.

(** scanner.go:56-76 read, with its deferred part (57-64) *)
Definition b_record (r : rune) (b : buffered) : buffered :=
  if r =? eof then b
  else mkBuf (lastReadBuffer b) (reader b) (b_raw b ++ [r]) (Advance (b_pc b) r).
Definition b_read (b : buffered) : rune * buffered :=
  match rev (lastReadBuffer b) with
  | ch :: _ => (ch, b_record ch (mkBuf (removelast (lastReadBuffer b)) (reader b) (b_raw b) (b_pc b)))
  | [] =>
    match reader b with
    | [] => (eof, b)
    | ch :: r => (ch, b_record ch (mkBuf [] r (b_raw b) (b_pc b)))
    end
  end.
(** scanner.go:78-82 unread *)
Definition b_unread (ch : rune) (b : buffered) : buffered :=
  mkBuf (lastReadBuffer b ++ [ch]) (reader b) (b_raw b) (Revert (b_pc b) ch).
(** scanner.go:84-91 peek *)
Definition b_peek (b : buffered) : rune * buffered :=
  let '(ch, b') := b_read b in
  if ch =? eof then (ch, b')
  else (ch, b_unread ch (mkBuf (lastReadBuffer b') (reader b') (removelast (b_raw b')) (b_pc b'))).
(** scanner.go:94-103 UnScan *)
Definition b_unscan (b : buffered) : buffered := fold_left (fun b ch => b_unread ch b) (rev (b_raw b)) b.

(** what is read next: un-read runes, last one first, then the reader *)
Definition pending (b : buffered) : list rune := rev (lastReadBuffer b) ++ reader b.

(** ** Any interleaving, against a plain list *)
Inductive op := ORead | OPeek | OUnread (c : rune).
Definition b_op (o : op) (b : buffered) : option rune * buffered :=
  match o with
  | ORead => let '(c, b') := b_read b in (Some c, b')
  | OPeek => let '(c, b') := b_peek b in (Some c, b')
  | OUnread c => (None, b_unread c b)
  end.
Fixpoint b_run (l : list op) (b : buffered) : list (option rune) * buffered :=
  match l with
  | [] => ([], b)
  | o :: l' => let '(r, b1) := b_op o b in let '(rs, b2) := b_run l' b1 in (r :: rs, b2)
  end.
(** the specification: one list; reading takes its head (0 at the end),
    un-reading puts a rune in front.  Peeking at a NUL takes it away. *)
Definition l_op (o : op) (l : list rune) : option rune * list rune :=
  match o with
  | ORead => match l with [] => (Some 0, []) | c :: l' => (Some c, l') end
  | OPeek => match l with [] => (Some 0, []) | c :: l' => (Some c, if c =? 0 then l' else l) end
  | OUnread c => (None, c :: l)
  end.
Fixpoint l_run (os : list op) (l : list rune) : list (option rune) * list rune :=
  match os with
  | [] => ([], l)
  | o :: os' => let '(r, l1) := l_op o l in let '(rs, l2) := l_run os' l1 in (r :: rs, l2)
  end.

Lemma pending_record r b : pending (b_record r b) = pending b.
Proof. unfold b_record. destruct (r =? eof); reflexivity. Qed.
Lemma rev_last {A} (l : list A) c t : rev l = c :: t -> l = rev t ++ [c].
Proof. intros H. rewrite <- (rev_involutive l), H. reflexivity. Qed.
Lemma b_read_pending b : match pending b with
  | [] => b_read b = (0, b)
  | c :: l => exists b', b_read b = (c, b') /\ pending b' = l
  end.
Proof.
  unfold pending at 1. unfold b_read. destruct (rev (lastReadBuffer b)) as [|c t] eqn:E; cbn [app].
  - destruct (reader b) as [|c r] eqn:R; [reflexivity|]. eexists. split; [reflexivity|].
    rewrite (pending_record c). reflexivity.
  - apply rev_last in E. eexists. split; [reflexivity|].
    rewrite (pending_record c). unfold pending. cbn. rewrite E, removelast_last, rev_involutive. reflexivity.
Qed.
Lemma b_op_spec o b : fst (b_op o b) = fst (l_op o (pending b)) /\ pending (snd (b_op o b)) = snd (l_op o (pending b)).
Proof.
  destruct o as [| |c]; cbn [b_op l_op].
  - pose proof (b_read_pending b) as H. destruct (pending b) as [|c l] eqn:P.
    + rewrite H. cbn. split; [reflexivity|exact P].
    + destruct H as (b' & -> & Pb). cbn. auto.
  - pose proof (b_read_pending b) as H. unfold b_peek. destruct (pending b) as [|c l] eqn:P.
    + rewrite H. cbn. split; [reflexivity|exact P].
    + destruct H as (b' & -> & Pb). change eof with 0. destruct (c =? 0); cbn.
      * auto.
      * split; [reflexivity|]. unfold pending in *. cbn. rewrite rev_app_distr. cbn. rewrite Pb. reflexivity.
  - cbn. split; [reflexivity|]. unfold pending. cbn. rewrite rev_app_distr. reflexivity.
Qed.
Theorem b_run_spec os : forall b, fst (b_run os b) = fst (l_run os (pending b)) /\
  pending (snd (b_run os b)) = snd (l_run os (pending b)).
Proof.
  induction os as [|o os IH]; intros b; cbn [b_run l_run]; [auto|].
  destruct (b_op_spec o b) as [A B]. destruct (b_op o b) as [r b1], (l_op o (pending b)) as [r' l1]. cbn in A, B. subst r' l1.
  destruct (IH b1) as [C D]. destruct (b_run os b1) as [rs b2], (l_run os (pending b1)) as [rs' l2]. cbn in *.
  split; congruence.
Qed.

(** ** The model's state is the abstraction of the buffered one *)
Definition agrees (b : buffered) (s : st) : Prop :=
  rest s = pending b /\ raw s = b_raw b /\ (pos s, cols s) = b_pc b.
Lemma read_agrees b s : agrees b s -> exists s', read s = (Ok (if fst (b_read b) =? eof then eof else fst (b_read b)), s') /\ agrees (snd (b_read b)) s'.
Proof.
  intros (R & W & P). pose proof (b_read_pending b) as H. unfold read. rewrite R.
  destruct (pending b) as [|c l] eqn:E.
  - rewrite H. cbn. eexists. split; [reflexivity|]. repeat split; try assumption. congruence.
  - destruct H as (b' & H & Pb). rewrite H. cbn [fst snd].
    assert (B' : b_raw b' = (if c =? eof then b_raw b else b_raw b ++ [c]) /\ b_pc b' = (if c =? eof then b_pc b else Advance (b_pc b) c)).
    { unfold b_read in H. unfold pending in E. destruct (rev (lastReadBuffer b)) as [|c' t].
      - destruct (reader b); [discriminate|]. injection H as <- <-. unfold b_record. destruct (_ =? eof); auto.
      - injection H as <- <-. unfold b_record. destruct (_ =? eof); auto. }
    destruct B' as [B1 B2]. destruct (c =? eof) eqn:Ec; eexists; (split; [reflexivity|]); repeat split; cbn; try congruence.
    rewrite B2, <- P. unfold Advance. destruct (c =? NL); reflexivity.
Qed.
Lemma unread_agrees b s c : agrees b s -> agrees (b_unread c b) (unread c s).
Proof.
  intros (R & W & P). repeat split; cbn.
  - unfold pending. cbn. rewrite rev_app_distr. cbn. f_equal. exact R.
  - exact W.
  - rewrite <- P. unfold Revert. destruct (c =? NL); reflexivity.
Qed.
Lemma unscan_agrees b s : agrees b s -> agrees (b_unscan b) (UnScan s).
Proof.
  intros A. unfold b_unscan, UnScan. replace (raw s) with (b_raw b) by (symmetry; apply A).
  generalize (rev (b_raw b)). intros l. revert b s A. induction l as [|c l IH]; intros b s A; cbn [fold_left]; [exact A|].
  apply IH. apply unread_agrees. exact A.
Qed.
