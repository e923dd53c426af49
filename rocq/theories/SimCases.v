(** Two runs of the parser compared: with and without bodyIncludingComments,
    with two file names. *)
From Coq Require Import List NArith ZArith Bool String Ascii Lia.
From Verif Require Import Base Token Scanner Lexer Ast Parser Api AstMap Simul LexSpec Tree SimSpec.
Import ListNotations.

(** ** The map that changes nothing *)
Definition same (p : mpos) : mpos := p.
Lemma map_meta_same m : map_meta same m = m. Proof. destruct m; reflexivity. Qed.
Lemma map_comment_same c : map_comment same c = c. Proof. destruct c as [r []]; reflexivity. Qed.
Lemma map_comments_same l : map (map_comment same) l = l.
Proof. induction l as [|a l IH]; cbn; rewrite ?map_comment_same, ?IH; reflexivity. Qed.
Lemma map_inline_same o : option_map (map_comment same) o = o.
Proof. destruct o; cbn; rewrite ?map_comment_same; reflexivity. Qed.
Local Ltac sm := intros; unfold map_syntax, map_edition, map_import, map_package, map_option, map_empty, map_field, map_mapField, map_oneofField, map_oneof, map_enumField, map_param, map_rpc, map_reserved, map_declaration, map_extensions; cbn;
  rewrite ?map_comments_same, ?map_inline_same, ?map_meta_same; try reflexivity.
Lemma map_same {A} (h : A -> A) : (forall a, h a = a) -> forall l, map h l = l.
Proof. intros H. induction l as [|a l IH]; cbn; rewrite ?H, ?IH; reflexivity. Qed.
Lemma map_option_same x : map_option same x = x. Proof. destruct x; sm. Qed.
Lemma map_oneofField_same x : map_oneofField same x = x. Proof. destruct x; sm. Qed.
Lemma map_declaration_same x : map_declaration same x = x. Proof. destruct x; sm. Qed.
Lemma map_param_same x : map_param same x = x. Proof. destruct x; sm. Qed.
Lemma map_visitee_same : forall v, map_visitee same false v = v.
Proof.
  fix IH 1.
  intros v. destruct v as [|x|x|x|x|x|x|x|x|x|x|x|x|x|x|x|x|x]; try reflexivity; destruct x; cbn [map_visitee]; try (f_equal; sm; fail).
  - f_equal. apply map_comment_same.
  - f_equal. unfold map_group. cbn. rewrite ?map_comments_same, ?map_inline_same, ?map_meta_same. f_equal. induction g_body as [|a l IHl]; [reflexivity|]. cbn [dropped]. replace (dropped false a) with false by (destruct a; reflexivity). rewrite IH, IHl. reflexivity.
  - f_equal. sm. rewrite !map_same by (apply map_option_same || apply map_oneofField_same). reflexivity.
  - f_equal. sm. rewrite !map_same by apply map_option_same. rewrite ?map_param_same. reflexivity.
  - f_equal. sm. rewrite !map_same by apply map_declaration_same. reflexivity.
  - f_equal. unfold map_block. cbn. rewrite ?map_comments_same, ?map_inline_same, ?map_meta_same. f_equal. induction b_body as [|a l IHl]; [reflexivity|]. replace (dropped false a) with false by (destruct a; reflexivity). rewrite IH, IHl. reflexivity.
  - f_equal. unfold map_block. cbn. rewrite ?map_comments_same, ?map_inline_same, ?map_meta_same. f_equal. induction b_body as [|a l IHl]; [reflexivity|]. replace (dropped false a) with false by (destruct a; reflexivity). rewrite IH, IHl. reflexivity.
  - f_equal. unfold map_block. cbn. rewrite ?map_comments_same, ?map_inline_same, ?map_meta_same. f_equal. induction b_body as [|a l IHl]; [reflexivity|]. replace (dropped false a) with false by (destruct a; reflexivity). rewrite IH, IHl. reflexivity.
  - f_equal. unfold map_block. cbn. rewrite ?map_comments_same, ?map_inline_same, ?map_meta_same. f_equal. induction b_body as [|a l IHl]; [reflexivity|]. replace (dropped false a) with false by (destruct a; reflexivity). rewrite IH, IHl. reflexivity.
Qed.

Local Arguments map_body : simpl never.
Lemma map_body_same l : map_body same false l = l.
Proof. unfold map_body. rewrite (map_same _ map_visitee_same). induction l as [|a l IH]; [reflexivity|]. cbn. replace (dropped false a) with false by (destruct a; reflexivity). cbn. rewrite IH. reflexivity. Qed.
Lemma map_proto_same p : map_proto same false (fun x => x) p = p.
Proof.
  destruct p as [sy ed b n]. unfold map_proto. cbn. rewrite map_body_same. f_equal; [destruct sy as [[]|]|destruct ed as [[]|]]; cbn; try reflexivity; f_equal; sm.
Qed.
Lemma map_err_same e : map_err same e = e.
Proof. induction e; cbn; unfold same in *; congruence. Qed.

(** ** With and without bodyIncludingComments *)
Lemma parse_bic perm n s : fst (ParseProto perm false n s) = map_res same true (fun x => x) (fst (ParseProto perm true n s)).
Proof.
  assert (S : SR same same eq (UC same same) eq s s).
  { split; try reflexivity. unfold UC. induction (unique_comments [] (comments s)); constructor; auto. split; reflexivity. }
  assert (B : forall l l', map (map_comment same) l' = map (map_comment same) l -> map_body same false (body_comments false l') = map_body same true (body_comments true l)).
  { intros l l' _. cbn. induction l as [|a l IH]; [reflexivity|]. exact IH. }
  pose proof (sim_proto same same true false true false 0 eq (fun x => x) (fun x => x)) as H.
  specialize (H ltac:(intros ? ? ? ? E E'; unfold PE, same in E, E'; subst; reflexivity) ltac:(intros ? ? E; unfold PE, same in E; subst; rewrite Z.add_0_r; reflexivity) ltac:(intros ? ? E; unfold PE, same in E; subst; reflexivity)).
  assert (PO : forall p p', PE same same p p' -> Offset p' = (Offset p + 0)%Z) by (intros ? ? E; unfold PE, same in E; subst; rewrite Z.add_0_r; reflexivity).
  assert (PC : forall a a' : mpos * colmap, PCR same same eq a a' -> a' = a). { intros [] [] [H1 H2]. unfold PE, same in H1. cbn in *. subst. reflexivity. }
  specialize (H ltac:(intros a a' r HP; apply PC in HP; subst; split; reflexivity) ltac:(intros a a' r HP; apply PC in HP; subst; split; reflexivity) B (UC same same) (UC_snoc same same 0 PO) (fun _ _ h => h) perm n eq s s S).
  destruct (ParseProto perm true n s) as [[a|e| |] t], (ParseProto perm false n s) as [[a'|e'| |] t']; unfold Outs in H; try contradiction H; cbn [fst map_res]; try reflexivity; f_equal.
  - unfold MPr in H. rewrite map_proto_same in H. exact H.
  - unfold ER in H. rewrite map_err_same in H. exact H.
Qed.

(** ** Two file names *)
Lemma parse_name perm bic n fn fn' input :
  fst (ParseProto perm bic n (init_st fn' input)) = map_res (relabel fn') false (fun _ => fn') (fst (ParseProto perm bic n (init_st fn input))).
Proof.
  set (s := init_st fn input). set (s' := init_st fn' input).
  assert (S : SR (relabel fn') same eq (UC (relabel fn') same) (fun _ _ => True) s s').
  { split; try reflexivity. constructor. }
  assert (B : forall l l', map (map_comment same) l' = map (map_comment (relabel fn')) l -> map_body same false (body_comments bic l') = map_body (relabel fn') false (body_comments bic l)).
  { intros l l' E. rewrite map_comments_same in E. subst l'. destruct bic; [|reflexivity]. cbn. induction l as [|a l IH]; [reflexivity|].
    unfold map_body in *. cbn. rewrite map_comment_same. f_equal. exact IH. }
  pose proof (sim_proto (relabel fn') same false false bic bic 0 eq (fun _ => fn') (fun x => x)) as H.
  specialize (H ltac:(intros ? ? ? ? E E'; unfold PE, same in E, E'; subst; reflexivity) ltac:(intros ? ? E; unfold PE, same in E; subst; rewrite Z.add_0_r; reflexivity) ltac:(intros ? ? E; unfold PE, same in E; subst; reflexivity)).
  assert (PO : forall p p', PE (relabel fn') same p p' -> Offset p' = (Offset p + 0)%Z) by (intros ? ? E; unfold PE, same in E; subst; rewrite Z.add_0_r; reflexivity).
  assert (PC : forall a a' : mpos * colmap, PCR (relabel fn') same eq a a' -> a' = (relabel fn' (fst a), snd a)). { intros [] [] [H1 H2]. unfold PE, same in H1. cbn in *. subst. reflexivity. }
  specialize (H ltac:(intros [p c] a' r HP; apply PC in HP; subst; unfold Advance; cbn [fst snd relabel]; destruct (r =? NL)%N; split; reflexivity)).
  specialize (H ltac:(intros [p c] a' r HP; apply PC in HP; subst; unfold Revert; cbn [fst snd relabel Line Offset Column Filename]; destruct (r =? NL)%N; split; reflexivity) B (UC (relabel fn') same) (UC_snoc (relabel fn') same 0 PO) (fun _ _ h => h) perm n _ s s' S).
  destruct (ParseProto perm bic n s) as [[a|e| |] t], (ParseProto perm bic n s') as [[a'|e'| |] t']; unfold Outs in H; try contradiction H; cbn [fst map_res]; try reflexivity; f_equal.
  - unfold MPr in H. rewrite map_proto_same in H. exact H.
  - unfold ER in H. rewrite map_err_same in H. exact H.
Qed.

(** ** In terms of Parse *)
Theorem bic_parse opts opts' input :
  cfg_permissive (config_of opts') = cfg_permissive (config_of opts) -> cfg_filename (config_of opts') = cfg_filename (config_of opts) ->
  cfg_bodyIncludingComments (config_of opts) = true -> cfg_bodyIncludingComments (config_of opts') = false ->
  Parse opts' input = map_res (fun p => p) true (fun x => x) (Parse opts input).
Proof. intros P F B B'. unfold Parse, parse_fuel. rewrite P, F, B, B'. apply parse_bic. Qed.
Theorem name_parse opts opts' input :
  cfg_permissive (config_of opts') = cfg_permissive (config_of opts) ->
  cfg_bodyIncludingComments (config_of opts') = cfg_bodyIncludingComments (config_of opts) ->
  Parse opts' input = map_res (relabel (cfg_filename (config_of opts'))) false (fun _ => cfg_filename (config_of opts')) (Parse opts input).
Proof. intros P B. unfold Parse, parse_fuel. rewrite P, B. apply parse_name. Qed.

(** ** Every position carries the configured name *)
Section Fixed.
Variable h : mpos -> mpos.
Definition Fix (e : elem) : Prop :=
  match e with
  | ESyntax x => map_syntax h x = x | EEdition x => map_edition h x = x | EStmt v => map_visitee h false v = v
  | EOneofField x => map_oneofField h x = x | EOption x => map_option h x = x | EParam x => map_param h x = x | EDeclaration x => map_declaration h x = x
  end.
Lemma map_fix {A} (m : A -> A) l : map m l = l -> forall a, In a l -> m a = a.
Proof. induction l as [|b l IH]; cbn; intros H a I; [contradiction|]. injection H as E1 E2. destruct I as [<-|I]; auto. Qed.
Lemma body_fix l : map_body h false l = l -> forall v, In v l -> map_visitee h false v = v.
Proof.
  intros H. apply map_fix. rewrite <- H at 2. unfold map_body. f_equal. clear. induction l as [|a l IH]; [reflexivity|]. cbn. replace (dropped false a) with false by (destruct a; reflexivity). cbn. f_equal. exact IH.
Qed.
Lemma fix_children e : Fix e -> forall l, In l (children e) -> forall e', In e' l -> Fix e'.
Proof.
  destruct e as [x|x|v|x|x|x|x]; cbn [children]; try (intros ? ? []; fail).
  destruct v as [|x|x|x|x|x|x|x|x|x|x|x|x|x|x|x|x|x]; try (intros ? ? []; fail); cbn [Fix]; rewrite ?map_message, ?map_enum, ?map_service, ?map_extend, ?map_groupField; intros H l L e' I; cbn [In] in L.
  1,5,6,7,8: destruct L as [<-|[]]; apply in_map_iff in I; destruct I as (v & <- & I); cbn [Fix]; injection H as H; destruct x; cbn in *; injection H; intros; eapply body_fix; eassumption.
  - destruct x as [fs nm os cs ic lc m]; cbn in *. injection H as H1 H2 _ _ _ _. destruct L as [<-|[<-|[]]]; apply in_map_iff in I; destruct I as (v & <- & I); cbn [Fix]; eapply map_fix; eassumption.
  - destruct x as [nm rq rs os cs ic lc em m]; cbn in *. injection H; intros. destruct L as [<-|[]]. cbn in I. destruct I as [<-|[<-|I]]; cbn [Fix]; try assumption. apply in_map_iff in I; destruct I as (v & <- & I). cbn [Fix]; eapply map_fix; eassumption.
  - destruct x as [rg ds cs ic lc m]; cbn in *. injection H; intros. destruct L as [<-|[]]. apply in_map_iff in I; destruct I as (v & <- & I). cbn [Fix]; eapply map_fix; eassumption.
Qed.
Lemma fix_element p nm : map_proto h false nm p = p -> forall e, element p e -> Fix e.
Proof.
  intros H e E. induction E as [e I|e l e' E IH L I]; [|exact (fix_children e IH l L e' I)].
  destruct p as [sy ed b n]. unfold map_proto in H. cbn in H. injection H as H1 H2 H3 _. unfold roots in I. cbn in I. apply in_app_or in I. destruct I as [I|I]; [|apply in_app_or in I; destruct I as [I|I]].
  - destruct sy; [|contradiction]. destruct I as [<-|[]]. cbn in *. congruence.
  - destruct ed; [|contradiction]. destruct I as [<-|[]]. cbn in *. congruence.
  - apply in_map_iff in I; destruct I as (v & <- & I). exact (body_fix _ H3 v I).
Qed.
Lemma fix_meta e m : Fix e -> e_meta e = Some m -> map_meta h m = m.
Proof.
  destruct e as [x|x|v|x|x|x|x]; [| |destruct v as [|x|x|x|x|x|x|x|x|x|x|x|x|x|x|x|x|x]| | | |]; cbn [Fix e_meta]; rewrite ?map_message, ?map_enum, ?map_service, ?map_extend, ?map_groupField; intros H E; try discriminate E; injection E as <-;
  destruct x; cbn in *; injection H; intros; cbn in *; unfold map_meta in *; congruence.
Qed.
Lemma fix_comment e c : Fix e -> In c (e_all e) -> map_comment h c = c.
Proof.
  assert (OF : forall o, option_map (map_comment h) o = o -> In c (opt_list (fun c => c) o) -> map_comment h c = c).
  { intros [a|] E I; [|contradiction]. destruct I as [<-|[]]. cbn in E. congruence. }
  unfold e_all. intros H I. apply in_app_or in I. destruct I as [I|I]; [|apply in_app_or in I; destruct I as [I|I]].
  - destruct e as [x|x|v|x|x|x|x]; [| |destruct v as [|x|x|x|x|x|x|x|x|x|x|x|x|x|x|x|x|x]| | | |]; cbn [Fix e_comments] in *; rewrite ?map_message, ?map_enum, ?map_service, ?map_extend, ?map_groupField in H; try contradiction I;
    destruct x; cbn in *; injection H; intros; eapply map_fix; eassumption.
  - destruct e as [x|x|v|x|x|x|x]; [| |destruct v as [|x|x|x|x|x|x|x|x|x|x|x|x|x|x|x|x|x]| | | |]; cbn [Fix e_inline] in *; rewrite ?map_message, ?map_enum, ?map_service, ?map_extend, ?map_groupField in H; try contradiction I;
    destruct x; cbn in *; injection H; intros; refine (OF _ _ I); assumption.
  - destruct e as [x|x|v|x|x|x|x]; [| |destruct v as [|x|x|x|x|x|x|x|x|x|x|x|x|x|x|x|x|x]| | | |]; cbn [Fix e_inner] in *; rewrite ?map_message, ?map_enum, ?map_service, ?map_extend, ?map_groupField in H; try contradiction I;
    try (destruct x; cbn in *; injection H; intros; refine (OF _ _ I); assumption).
    + destruct I as [<-|[]]. cbn [map_visitee] in H; congruence.
    + destruct x; cbn in *; injection H; intros. apply in_app_or in I. destruct I as [I|I]; [refine (map_fix (map_comment h) _ _ _ I); assumption|refine (OF _ _ I); assumption].
Qed.
End Fixed.
Lemma relabel_named fn m : map_meta (relabel fn) m = m -> named fn m.
Proof. destruct m as [[] []]. unfold map_meta, relabel. cbn. intros H. injection H as <- <-. split; reflexivity. Qed.
Theorem name_labels opts input pr : Parse opts input = Ok pr ->
  p_filename pr = cfg_filename (config_of opts) /\
  forall e, element pr e ->
    (forall m, e_meta e = Some m -> named (cfg_filename (config_of opts)) m) /\
    (forall c, In c (e_all e) -> named (cfg_filename (config_of opts)) (c_meta c)).
Proof.
  intros H. pose proof (name_parse opts opts input eq_refl eq_refl) as N. rewrite H in N. cbn in N. injection N as N.
  split; [rewrite N; reflexivity|]. intros e E. pose proof (fix_element _ pr (fun _ => cfg_filename (config_of opts)) (eq_sym N) e E) as F. split.
  - intros m M. apply relabel_named. eapply fix_meta; eassumption.
  - intros c I. apply relabel_named. pose proof (fix_comment _ _ _ F I) as G. destruct c as [r m]. cbn in *. injection G. auto.
Qed.
Theorem name_errors opts input e : Parse opts input = Err e -> forall p, In p (err_positions e) -> Filename p = cfg_filename (config_of opts).
Proof.
  intros H. pose proof (name_parse opts opts input eq_refl eq_refl) as N. rewrite H in N. cbn in N. injection N as N.
  clear H. induction e as [p x r|p x r|p x t k|a IHa b IHb]; cbn in *; intros q I.
  1-3: destruct I as [<-|[]]; injection N as N; rewrite N; reflexivity.
  injection N as N1 N2. apply in_app_or in I. destruct I; auto.
Qed.
