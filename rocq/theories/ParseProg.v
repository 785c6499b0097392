(** Proofs for C44: blocks, compound statements, whole programs. *)
From Verif Require Import Base Lexer Spec_Lex LexFacts LexAll Syntax Parser ParseFacts ParseTotal Spec_Parse ParseExpr ParseLine Spec_Program ParseStmt ParseDecl.
Local Open Scope Z_scope.
Local Open Scope parse_scope.

(** ** Rounds of a loop *)
Inductive rounds {A} (c : tk -> bool) (body : A -> P A) : nat -> A -> pst -> A -> pst -> Prop :=
| rn_0 a s : rounds c body 0 a s a s
| rn_S a s a1 s1 k a' s' : c (kind s) = true -> body a s = POk a1 s1 -> rounds c body k a1 s1 a' s' -> rounds c body (S k) a s a' s'.
Lemma rounds_app {A} c (body : A -> P A) k a s a1 s1 k' a2 s2 :
  rounds c body k a s a1 s1 -> rounds c body k' a1 s1 a2 s2 -> rounds c body (k + k') a s a2 s2.
Proof. induction 1; intros H2; [exact H2|]. cbn. econstructor; eauto. Qed.
Lemma rounds_loops {A} c (body : A -> P A) k a s a1 s1 : rounds c body k a s a1 s1 -> c (kind s1) = false -> loops c body k a s a1 s1.
Proof. induction 1; intros H2; econstructor; eauto. Qed.

Section Prog.
Variable U : uni.

Definition FB (k : tk) : Prop := one_of block_end k = true.
Definition cbody (R : rec) (l : list sx) : P (list sx) :=
  b <- is TNewline ;; if b then consume TNewline ;;; ret l else x <- declaration U R ;; ret (l ++ x).

Definition PB (l : list st) (ws : list word) : Prop :=
  forall N stop, stop = block_end \/ stop = [TEof] -> (List.length ws <= N)%nat ->
  forall ts rest e acc, words ts = ws -> good rest e ->
  exists k r, (k <= List.length ts)%nat /\ rounds (not_in stop) (cbody (run U N)) k acc (ts ++ rest, e) (acc ++ r) (rest, e) /\ Qs l r.
Definition PW (l : list st) (ws : list word) : Prop :=
  (exists w ws', ws = w :: ws' /\ ~ In (fst w) (TNewline :: block_end) /\ fst w <> TUsa /\ fst w <> TDoubleAt) /\
  forall N, (List.length ws <= N)%nat -> parses (declaration U (run U N)) ws (fun _ => True) (Qs l).
Definition Blk (b : list st) (ws : list word) : Prop :=
  forall N, (List.length ws < N)%nat -> parses (r_block (run U N)) ws FB (Qs b).

Lemma PB_Blk b ws : PB b ws -> Blk b ws.
Proof.
  intros H N HN. destruct N as [|N]; [lia|]. cbn [run step r_block]. intros ts rest e Ht Hg Hk.
  destruct (H N block_end (or_introl eq_refl) ltac:(lia) ts rest e [] Ht Hg) as (k & r & Hl & Hr & Qr). exists r. split; [|exact Qr].
  unfold children, loop. eapply while_loops; [apply rounds_loops; [exact Hr|]|].
  - unfold not_in. unfold FB in Hk. now rewrite Hk.
  - cbn [fst]. rewrite app_length. lia.
Qed.
Lemma PB_nil : PB [] [].
Proof.
  intros N stop _ _ ts rest e acc Ht Hg. destruct ts; [|discriminate]. exists 0%nat, []. rewrite app_nil_r. repeat split; [lia|constructor].
Qed.
Lemma stop_newline stop : stop = block_end \/ stop = [TEof] -> not_in stop TNewline = true.
Proof. intros [-> | ->]; reflexivity. Qed.
Lemma stop_start stop k : stop = block_end \/ stop = [TEof] -> ~ In k (TNewline :: block_end) -> not_in stop k = true /\ tk_eqb k TNewline = false.
Proof.
  intros Hs Hk. split; [|apply neqb; intros ->; apply Hk; now left]. unfold not_in. destruct (one_of stop k) eqn:E; [|reflexivity].
  exfalso. apply Hk. right. unfold one_of in E. apply existsb_exists in E as (k' & Hin & E). apply tk_eqb_true in E. subst k'.
  destruct Hs as [-> | ->]; [exact Hin|]. destruct Hin as [<-|[]]. cbn. tauto.
Qed.
Lemma PB_line l ws : PB l ws -> PB l (w_nl :: ws).
Proof.
  intros H N stop Hs HN ts rest e acc Ht Hg. destruct ts as [|t ts]; [discriminate|]. 
  pose proof (f_equal (hd w_nl) Ht) as Hw. pose proof (f_equal (@List.tl word) Ht) as Ht'. cbn [words map hd List.tl] in Hw, Ht'. clear Ht. rename Ht' into Ht.
  cbn [List.length] in HN.
  destruct (H N stop Hs ltac:(lia) ts rest e acc Ht Hg) as (k & r & Hl & Hr & Qr). exists (S k), r. split; [cbn; lia|]. split; [|exact Qr].
  assert (Hk : kind ((t :: ts) ++ rest, e) = TNewline) by (unfold word_of in Hw; injection Hw as Hw; exact Hw).
  econstructor; [rewrite Hk; now apply stop_newline| |exact Hr].
  unfold cbody, bind at 1, is. rewrite Hk. change (tk_eqb TNewline TNewline) with true. cbv iota.
  destruct (parses_consume w_nl (fun _ => True) [t] (ts ++ rest) e) as (t' & Et' & _).
  { cbn. now rewrite Hw. }
  { apply good_app, Hg. } { exact I. }
  cbn [fst w_nl kw lit app] in Et'. unfold bind. cbn [app]. rewrite Et'. reflexivity.
Qed.

Lemma PB_cons l ws l' ws' : PW l ws -> PB l' ws' -> PB (l ++ l') (ws ++ ws').
Proof.
  intros [(w & ws0 & -> & Hw & _) H1] H2 N stop Hs HN ts rest e acc Ht Hg. unfold words in Ht.
  destruct (map_eq_app _ _ _ _ Ht) as (t1 & t2 & -> & E1 & E2). rewrite app_length in HN.
  destruct (H1 N ltac:(lia) t1 (t2 ++ rest) e E1 (good_app _ _ _ Hg) I) as (x & Ex & Qx).
  destruct (H2 N stop Hs ltac:(lia) t2 rest e (acc ++ x) E2 Hg) as (k & r & Hl & Hr & Qr).
  destruct t1 as [|u t1]; [discriminate|].
  assert (Hk : kind (((u :: t1) ++ t2) ++ rest, e) = fst w).
  { pose proof (f_equal (hd w_nl) E1) as Eh. cbn in Eh. rewrite <- Eh. reflexivity. }
  destruct (stop_start stop (fst w) Hs Hw) as [S1 S2].
  exists (S k), (x ++ r). split; [rewrite app_length; cbn; lia|]. split; [|now apply all_app].
  econstructor; [rewrite Hk; exact S1| |rewrite app_assoc; exact Hr].
  unfold cbody, bind at 1, is. rewrite Hk, S2. rewrite <- app_assoc. unfold bind. rewrite Ex. reflexivity.
Qed.

(** ** Statements *)
Lemma parses_single (m : P sx) ws F s : parses m ws F (fun x => shape_st x = Some s) -> parses (x <- m ;; ret [x]) ws F (Qs [s]).
Proof.
  intros H. rewrite <- (app_nil_r ws). eapply parses_bind; [exact H|destruct ws; cbn; auto|]. intros x Hx. apply parses_ret. now apply Qs_one.
Qed.

(** What is left of a statement once its words are read. *)
Lemma fb k : In k [TFim; TSenao; TSenaoSe; TCaso] -> FB k.
Proof. cbn. intros [<-|[<-|[<-|[<-|[]]]]]; reflexivity. Qed.

Lemma stmt_while c b ws N : Blk b ws ->
  (List.length (kw TEnquanto "enquanto" :: show 0 c ++ kw TFaca "faca" :: ws ++ [w_fim]) <= N)%nat ->
  parses (statement U (run U N)) (kw TEnquanto "enquanto" :: show 0 c ++ kw TFaca "faca" :: ws ++ [w_fim]) (fun _ => True) (Qs [SWhile c b]).
Proof.
  intros Hb HN. unfold statement. pick tk0 Ek. apply parses_single. unfold enquanto_stmt. tok.
  eapply parses_bind; [apply parses_equality; len|reflexivity|]. intros x Qx. tok. unfold Parser.block.
  eapply parses_bind; [apply Hb; len|reflexivity|]. intros r Qr. tok. apply parses_ret. unfold Qe, Qs in *. cbn [shape_st]. now rewrite Qx, Qr.
Qed.

Lemma parses_orelse {A} els ws N (K : option (list sx) -> P A) F Q : 
  (els = None /\ ws = [] \/ exists b wb, els = Some b /\ ws = kw TSenao "senao" :: wb /\ Blk b wb) -> (List.length ws <= N)%nat ->
  (forall o, match o, els with None, None => True | Some r, Some b => Qs b r | _, _ => False end -> parses (K o) [w_fim] F Q) ->
  parses (b <- is TSenao ;; el <- (if b then consume TSenao ;;; l <- r_block (run U N) ;; ret (Some l) else ret None) ;; K el) (ws ++ [w_fim]) F Q.
Proof.
  intros [[-> ->]|(b & wb & -> & -> & Hb)] HN HK.
  - cbn [app]. apply parses_is. change (tk_eqb (fst w_fim) TSenao) with false. cbv iota. change [w_fim] with ([] ++ [w_fim]).
    eapply parses_bind with (F1 := fun _ => True) (Q1 := fun o => o = None); [now apply parses_ret|exact I|]. intros o ->. now apply HK.
  - cbn [app]. apply parses_is. change (tk_eqb (fst (kw TSenao "senao")) TSenao) with true. cbv iota. rewrite app_comm_cons.
    eapply parses_bind with (F1 := FB) (Q1 := fun o => exists r, o = Some r /\ Qs b r).
    + tok. rewrite <- (app_nil_r wb). eapply parses_bind; [apply Hb; len|cbn; auto|]. intros r Qr. apply parses_ret. eauto.
    + reflexivity.
    + intros o (r & -> & Qr). now apply HK.
Qed.

Definition els_ok (els : option (list st)) (ws : list word) : Prop :=
  els = None /\ ws = [] \/ exists b wb, els = Some b /\ ws = kw TSenao "senao" :: wb /\ Blk b wb.
Definition shape_elif (x : sx) : option (ex * list st) :=
  match x with
  | XSenaoSe _ c b => obind (shape c) (fun c => obind (match b with XBlock l => all shape_st l | _ => None end) (fun b => Some (c, b)))
  | _ => None
  end.
Definition elifs_ok (l : list (ex * list st)) (ws : list word) : Prop :=
  (l = [] /\ ws = [] \/ exists ws', ws = kw TSenaoSe "senaose" :: ws') /\
  forall N acc, (List.length ws <= N)%nat ->
    parses (loop (one_of [TSenaoSe]) (fun l => x <- senaose_branch U (run U N) ;; ret (l ++ [x])) acc) ws (fun k => k = TSenao \/ k = TFim)
      (fun r => exists r', r = acc ++ r' /\ all shape_elif r' = Some l).
Lemma elifs_nil : elifs_ok [] [].
Proof.
  split; [auto|]. intros N acc _. apply parses_loop_nil; [intros k [-> | ->]; reflexivity|]. exists []. split; [now rewrite app_nil_r|reflexivity].
Qed.
Lemma elifs_cons c b wb l ws : Blk b wb -> elifs_ok l ws ->
  elifs_ok ((c, b) :: l) (kw TSenaoSe "senaose" :: show 0 c ++ kw TEntao "entao" :: wb ++ ws).
Proof.
  intros Hb [Hh Hl]. split; [right; eauto|]. intros N acc HN.
  replace (kw TSenaoSe "senaose" :: show 0 c ++ kw TEntao "entao" :: wb ++ ws) with ((kw TSenaoSe "senaose" :: (show 0 c ++ kw TEntao "entao" :: wb)) ++ ws)
    by (cbn; rewrite <- app_assoc; reflexivity).
  eapply parses_loop_cons with (F1 := FB) (Q1 := fun r => exists x, r = acc ++ [x] /\ shape_elif x = Some (c, b)); [reflexivity| | |].
  - rewrite <- (app_nil_r (kw TSenaoSe "senaose" :: _)). eapply parses_bind with (F1 := FB) (Q1 := fun x => shape_elif x = Some (c, b)).
    + unfold senaose_branch. tok. eapply parses_bind; [apply parses_equality; len|reflexivity|]. intros x Qx. tok. unfold Parser.block.
      rewrite <- (app_nil_r wb). eapply parses_bind; [apply Hb; len|cbn; auto|]. intros r Qr. apply parses_ret. unfold Qe, Qs in *. cbn. now rewrite Qx, Qr.
    + cbn. auto.
    + intros x Hx. apply parses_ret. eauto.
  - destruct Hh as [[_ ->]|[ws' ->]]; [cbn; intros k [-> | ->]; reflexivity|reflexivity].
  - cbn beta. intros r (x & -> & Hx). eapply parses_mono; [apply Hl; len|auto|]. intros r (r' & -> & Hr). exists (x :: r').
    split; [now rewrite <- app_assoc|]. cbn [all]. rewrite Hx. cbn [obind]. now rewrite Hr.
Qed.
Lemma elses_meets l we els ws F : elifs_ok l we -> els_ok els ws -> meets (we ++ ws ++ [w_fim]) F FB.
Proof.
  intros [[[_ ->]|[we' ->]] _] [[_ ->]|(b & wb & _ & -> & _)]; reflexivity.
Qed.

Lemma stmt_if c b elifs els wb we ws N : Blk b wb -> elifs_ok elifs we -> els_ok els ws ->
  (List.length (kw TSe "se" :: show 0 c ++ kw TEntao "entao" :: wb ++ we ++ ws ++ [w_fim]) <= N)%nat ->
  parses (statement U (run U N)) (kw TSe "se" :: show 0 c ++ kw TEntao "entao" :: wb ++ we ++ ws ++ [w_fim]) (fun _ => True) (Qs [SIf c b elifs els]).
Proof.
  intros Hb He Hs HN. unfold statement. pick tk0 Ek. apply parses_single. unfold se_statement. tok.
  destruct (show_starts c 0) as (w & ws0 & Ew & Hw).
  assert (Ews : show 0 c ++ kw TEntao "entao" :: wb ++ we ++ ws ++ [w_fim] = w :: ws0 ++ kw TEntao "entao" :: wb ++ we ++ ws ++ [w_fim]) by now rewrite Ew.
  apply (parses_is_hd _ _ _ _ _ _ _ Ews).
  replace (tk_eqb (fst w) TIguala) with false by (symmetry; apply neqb; intros E; rewrite E in Hw; cbn in Hw; intuition discriminate).
  eapply parses_bind; [apply parses_equality; len|reflexivity|]. intros x Qx. tok. unfold Parser.block.
  eapply parses_bind; [apply Hb; len|eapply elses_meets; eassumption|]. intros r Qr.
  eapply parses_bind; [apply He; len| |].
  - destruct Hs as [[_ ->]|(b0 & wb0 & _ & -> & _)]; cbn; auto.
  - cbn beta. intros rl (r' & -> & Hr'). cbn [app].
    eapply parses_ext; [|apply (parses_orelse els ws N (fun o => consume TFim ;;; ret (XSe t x (XBlock r) r' (option_map XBlock o)))); [exact Hs|len|]].
    + intros s. apply bind_ok_ext. intros bb s'. destruct bb; [|reflexivity]. rewrite !bind_bind. apply bind_ok_ext. intros a s2.
      rewrite !bind_bind. apply bind_ok_ext. intros a2 s3. reflexivity.
    + intros o Ho. tok. apply parses_ret. unfold Qe, Qs in *. cbn [shape_st]. rewrite Qx, Qr. cbn [obind].
      change (fun x => match x with XSenaoSe _ c b => obind (shape c) (fun c => obind (match b with XBlock l => all shape_st l | _ => None end) (fun b => Some (c, b))) | _ => None end) with shape_elif.
      rewrite Hr'. cbn [obind]. destruct o as [ro|], els as [bo|]; try contradiction; cbn [option_map]; [now rewrite Ho|reflexivity].
Qed.

Lemma shape_opt_some x e : Qe e x -> shape_opt (Some x) = Some (Some e).
Proof. unfold Qe. intros H. cbn. now rewrite H. Qed.

Lemma stmt_for n a z step b ws N : Blk b ws ->
  let words_ := kw TPara "para" :: w_name n :: kw TDe "de" :: show 0 a ++ kw TDdot ".." :: show 0 z ++
       match step with Some e => kw TInc "inc" :: show 0 e | None => [] end ++ kw TFaca "faca" :: ws ++ [w_fim] in
  (List.length words_ <= N)%nat -> parses (statement U (run U N)) words_ (fun _ => True) (Qs [SFor n a z step b]).
Proof.
  cbn zeta. intros Hb HN. unfold statement. pick tk0 Ek. apply parses_single. unfold para_stmt. tok. tok. tok.
  eapply parses_bind; [apply parses_equality; len|reflexivity|]. intros x Qx. tok.
  eapply parses_bind; [apply parses_equality; len|destruct step; reflexivity|]. intros y Qy.
  assert (Fin : forall o, shape_opt o = Some step -> parses (consume TFaca ;;; b <- Parser.block (run U N) ;; consume TFim ;;; ret (XPara t t0 x y o (XBlock b)))
    (kw TFaca "faca" :: ws ++ [w_fim]) (fun _ => True) (fun x => shape_st x = Some (SFor n a z step b))).
  { intros o Ho. tok. unfold Parser.block. eapply parses_bind; [apply Hb; destruct step; len|reflexivity|]. intros r Qr. tok. apply parses_ret.
    unfold Qe, Qs in *. cbn [shape_st]. rewrite Qx, Qy, Ho, Qr. cbn [obind]. now rewrite (lex_name _ _ Et0). }
  destruct step as [e|].
  - cbn [app]. apply parses_is. change (tk_eqb (fst (kw TInc "inc")) TInc) with true. cbv iota. rewrite app_comm_cons.
    eapply parses_bind with (F1 := FE 0) (Q1 := fun o => shape_opt o = Some (Some e)); [|reflexivity|exact Fin].
    tok. rewrite <- (app_nil_r (show 0 e)). eapply parses_bind; [apply parses_equality; len|cbn; auto|]. intros v Qv. apply parses_ret. now apply shape_opt_some.
  - cbn [app]. apply parses_is. change (tk_eqb (fst (kw TFaca "faca")) TInc) with false. cbv iota.
    change (kw TFaca "faca" :: ?r) with ([] ++ kw TFaca "faca" :: r).
    eapply parses_bind with (F1 := fun _ => True) (Q1 := fun o => o = None); [now apply parses_ret|exact I|]. intros o ->. now apply Fin.
Qed.

(** [escolha] *)
Definition shape_caso (x : sx) : option (ex * list st) :=
  match x with
  | XCaso _ c b => obind (shape c) (fun c => obind (match b with XBlock l => all shape_st l | _ => None end) (fun b => Some (c, b)))
  | _ => None
  end.
Definition casos_ok (l : list (ex * list st)) (ws : list word) : Prop :=
  (l = [] /\ ws = [] \/ exists ws', ws = kw TCaso "caso" :: ws') /\
  forall N acc, (List.length ws <= N)%nat ->
    parses (loop (one_of [TCaso]) (fun l => t <- consume TCaso ;; x <- equality U (run U N) ;; consume TColon ;;; b <- Parser.block (run U N) ;;
                       ret (l ++ [XCaso t x (XBlock b)])) acc) ws (fun k => k = TSenao \/ k = TFim)
      (fun r => exists r', r = acc ++ r' /\ all shape_caso r' = Some l).
Lemma casos_nil : casos_ok [] [].
Proof.
  split; [auto|]. intros N acc _. apply parses_loop_nil; [intros k [-> | ->]; reflexivity|]. exists []. split; [now rewrite app_nil_r|reflexivity].
Qed.
Lemma casos_cons c b wb l ws : Blk b wb -> casos_ok l ws -> casos_ok ((c, b) :: l) (kw TCaso "caso" :: show 0 c ++ w_colon :: wb ++ ws).
Proof.
  intros Hb [Hh Hl]. split; [right; eauto|]. intros N acc HN.
  replace (kw TCaso "caso" :: show 0 c ++ w_colon :: wb ++ ws) with ((kw TCaso "caso" :: (show 0 c ++ w_colon :: wb)) ++ ws)
    by (cbn; rewrite <- app_assoc; reflexivity).
  eapply parses_loop_cons with (F1 := FB) (Q1 := fun r => exists x, r = acc ++ [x] /\ shape_caso x = Some (c, b)); [reflexivity| | |].
  - tok. eapply parses_bind; [apply parses_equality; len|reflexivity|]. intros x Qx. tok. unfold Parser.block.
    rewrite <- (app_nil_r wb). eapply parses_bind; [apply Hb; len|cbn; auto|]. intros r Qr. apply parses_ret. eexists. split; [reflexivity|].
    unfold Qe, Qs in *. cbn. now rewrite Qx, Qr.
  - destruct Hh as [[_ ->]|[ws' ->]]; [cbn; intros k [-> | ->]; reflexivity|reflexivity].
  - cbn beta. intros r (x & -> & Hx). eapply parses_mono; [apply Hl; len|auto|]. intros r (r' & -> & Hr). exists (x :: r').
    split; [now rewrite <- app_assoc|]. cbn [all]. rewrite Hx. cbn [obind]. now rewrite Hr.
Qed.
Definition dflt_ok (els : option (list st)) (ws : list word) : Prop :=
  els = None /\ ws = [] \/ exists b wb, els = Some b /\ ws = kw TSenao "senao" :: w_colon :: wb /\ Blk b wb.
Lemma stmt_switch e k cs els wc ws N : casos_ok cs wc -> dflt_ok els ws ->
  let words_ := kw TEscolha "escolha" :: show 0 e ++ w_colon :: lines k ++ wc ++ ws ++ [w_fim] in
  (List.length words_ <= N)%nat -> parses (statement U (run U N)) words_ (fun _ => True) (Qs [SSwitch e cs els]).
Proof.
  cbn zeta. intros Hc Hs HN. unfold statement. pick tk0 Ek. apply parses_single. unfold escolha_stmt. tok.
  eapply parses_bind; [apply parses_equality; len|reflexivity|]. intros x Qx. tok.
  apply parses_lines; [destruct Hc as [[[_ ->]|[wc' ->]] _]; destruct Hs as [[_ ->]|(b0 & wb0 & _ & -> & _)]; discriminate|].
  eapply parses_bind; [apply Hc; len|destruct Hs as [[_ ->]|(b0 & wb0 & _ & -> & _)]; cbn; auto|].
  cbn beta. intros rl (r' & -> & Hr'). cbn [app].
  assert (Fin : forall o, match o with Some (XBlock r) => exists b, els = Some b /\ Qs b r | Some _ => False | None => els = None end ->
    parses (consume TFim ;;; ret (XEscolha t x r' o)) [w_fim] (fun _ => True) (fun x => shape_st x = Some (SSwitch e cs els))).
  { intros o Ho. tok. apply parses_ret. unfold Qe, Qs in *. cbn [shape_st]. rewrite Qx. cbn [obind].
    change (all (fun x0 => match x0 with XCaso _ c b => obind (shape c) (fun c => obind (match b with XBlock l => all shape_st l | _ => None end) (fun b => Some (c, b))) | _ => None end) r') with (all shape_caso r').
    rewrite Hr'. cbn [obind]. destruct o as [y|]; [|now subst els]. destruct y; try contradiction. destruct Ho as (b & -> & Hb). now rewrite Hb. }
  destruct Hs as [[-> ->]|(b & wb & -> & -> & Hb)].
  - cbn [app]. apply parses_is. change (tk_eqb (fst w_fim) TSenao) with false. cbv iota. change [w_fim] with ([] ++ [w_fim]).
    eapply parses_bind with (F1 := fun _ => True) (Q1 := fun o => o = None); [now apply parses_ret|exact I|]. intros o ->. now apply Fin.
  - cbn [app]. apply parses_is. change (tk_eqb (fst (kw TSenao "senao")) TSenao) with true. cbv iota.
    change (kw TSenao "senao" :: w_colon :: wb ++ [w_fim]) with ((kw TSenao "senao" :: w_colon :: wb) ++ [w_fim]).
    eapply parses_bind with (F1 := FB) (Q1 := fun o => exists r, o = Some (XBlock r) /\ Qs b r).
    + tok. tok. unfold Parser.block. rewrite <- (app_nil_r wb). eapply parses_bind; [apply Hb; len|cbn; auto|]. intros r Qr. apply parses_ret. eauto.
    + reflexivity.
    + intros o (r & -> & Qr). apply Fin. eauto.
Qed.

(** [iguala] *)
Definition shape_arm (x : sx) : option (pt * list st) :=
  match x with
  | XArm _ p (XYield _ _ b) => obind (shape_pt p) (fun p => obind (all shape_st b) (fun b => Some (p, b)))
  | _ => None
  end.
Definition arm_end (k : tk) : Prop := In k [TComma; TFim; TIdent; TInteger; TString].
Lemma arm_end_FE k : arm_end k -> FE 0 k /\ k <> TNewline.
Proof. intros H. cbn in H. repeat (destruct H as [<-|H]; [split; [reflexivity|discriminate]|]). contradiction. Qed.
Definition parm (N : nat) : P sx := iguala_arm (run U N) (equality U (run U N)) (pattern U (run U N)).
Definition arm_ok (a : pt * list st) (ws : list word) : Prop :=
  (exists w ws', ws = w :: ws' /\ In (fst w) pt_heads) /\
  forall N k, (List.length ws <= N)%nat -> parses (parm N) (lines k ++ ws) arm_end (fun x => shape_arm x = Some a).
Lemma arm_starts p ws : exists w ws', show_pt p ++ ws = w :: ws' /\ In (fst w) pt_heads.
Proof. destruct (pt_starts p) as (w & ws' & E & H). rewrite E. eexists _, _. split; [reflexivity|exact H]. Qed.
Lemma head_not_nl (w : word) : In (fst w) pt_heads -> fst w <> TNewline.
Proof. intros H E. rewrite E in H. cbn in H. intuition discriminate. Qed.
Lemma arm_expr p e k k' : pt_ok p -> arm_ok (p, [SYield e]) (show_pt p ++ w_arrow :: lines k ++ show 0 e ++ lines k').
Proof.
  intros Hp. split; [apply arm_starts|]. intros N k0 HN. unfold parm, iguala_arm.
  destruct (arm_starts p (w_arrow :: lines k ++ show 0 e ++ lines k')) as (w & ws' & E & Hw).
  apply parses_lines; [rewrite E; now apply head_not_nl|].
  eapply parses_bind; [apply parses_pattern; [exact Hp|len]|split; discriminate|]. intros q Qq. tok.
  destruct (show_starts e 0) as (w1 & ws1 & E1 & Hw1).
  assert (E1' : show 0 e ++ lines k' = w1 :: ws1 ++ lines k') by now rewrite E1.
  apply parses_lines; [rewrite E1'; cbn; intros X; rewrite X in Hw1; cbn in Hw1; intuition discriminate|].
  apply (parses_is_hd _ _ _ _ _ _ _ E1').
  replace (tk_eqb (fst w1) TFaca) with false by (symmetry; apply neqb; intros X; rewrite X in Hw1; cbn in Hw1; intuition discriminate).
  eapply parses_bind; [apply parses_equality; len|destruct k'; cbn; [intros kk Hk; now apply arm_end_FE|reflexivity]|]. intros x Qx.
  rewrite <- (app_nil_r (lines k')). apply parses_lines; [cbn; intros kk Hk; now apply arm_end_FE|].
  apply parses_ret. unfold Qe, Qp in *. cbn [shape_arm all shape_st]. now rewrite Qq, Qx.
Qed.
Lemma arm_block p b wb k k' : pt_ok p -> Blk b wb -> arm_ok (p, b) (show_pt p ++ w_arrow :: lines k ++ kw TFaca "faca" :: wb ++ w_fim :: lines k').
Proof.
  intros Hp Hb. split; [apply arm_starts|]. intros N k0 HN. unfold parm, iguala_arm.
  destruct (arm_starts p (w_arrow :: lines k ++ kw TFaca "faca" :: wb ++ w_fim :: lines k')) as (w & ws' & E & Hw).
  apply parses_lines; [rewrite E; now apply head_not_nl|].
  eapply parses_bind; [apply parses_pattern; [exact Hp|len]|split; discriminate|]. intros q Qq. tok.
  apply parses_lines; [discriminate|]. apply parses_is. change (tk_eqb (fst (kw TFaca "faca")) TFaca) with true. cbv iota. tok.
  eapply parses_bind; [apply Hb; len|reflexivity|]. intros r Qr. tok.
  rewrite <- (app_nil_r (lines k')). apply parses_lines; [cbn; intros kk Hk; now apply arm_end_FE|].
  apply parses_ret. unfold Qs, Qp in *. cbn [shape_arm]. now rewrite Qq, Qr.
Qed.

Definition inner_loop (N : nat) := loop (one_of [TComma]) (fun arms => consume TComma ;;; a <- parm N ;; ret (arms ++ [a])).
Definition outer_loop (N : nat) := loop (not_in [TFim]) (fun arms => a <- parm N ;; inner_loop N (arms ++ [a])).
Definition Qa (acc : list sx) (l : list (pt * list st)) (r : list sx) : Prop := exists r', r = acc ++ r' /\ all shape_arm r' = Some l.
Lemma Qa_nil acc : Qa acc [] acc.
Proof. exists []. split; [now rewrite app_nil_r|reflexivity]. Qed.
Lemma Qa_cons acc x a l r : shape_arm x = Some a -> Qa (acc ++ [x]) l r -> Qa acc (a :: l) r.
Proof. intros Hx (r' & -> & Hr). exists (x :: r'). split; [now rewrite <- app_assoc|]. cbn [all]. rewrite Hx. cbn [obind]. now rewrite Hr. Qed.
Lemma Qa_app acc l1 l2 r1 r : Qa acc l1 r1 -> Qa r1 l2 r -> Qa acc (l1 ++ l2) r.
Proof. intros (a & -> & Ha) (b & -> & Hb). exists (a ++ b). split; [now rewrite app_assoc|]. now apply all_app. Qed.
Definition after (k : tk) : Prop := In k [TFim; TIdent; TInteger; TString].

(** The arms that follow: those read after commas, then the others. *)
Definition more_ok (l : list (pt * list st)) (ws : list word) : Prop :=
  exists l1 l2 ws1 ws2, l = l1 ++ l2 /\ ws = ws1 ++ ws2 /\
    (l1 = [] /\ ws1 = [] \/ exists ws', ws1 = w_comma :: ws') /\
    (l2 = [] /\ ws2 = [] \/ exists w ws', ws2 = w :: ws' /\ In (fst w) pt_heads) /\
    forall N acc, (List.length ws <= N)%nat ->
      parses (inner_loop N acc) ws1 after (Qa acc l1) /\ parses (outer_loop N acc) ws2 (fun k => k = TFim) (Qa acc l2).
Lemma heads_after (w : word) : In (fst w) pt_heads -> after (fst w).
Proof. cbn. unfold after. cbn. tauto. Qed.
Lemma after_not_comma k : after k -> one_of [TComma] k = false.
Proof. intros H. cbn in H. repeat (destruct H as [<-|H]; [reflexivity|]). contradiction. Qed.
Lemma after_arm_end k : after k -> arm_end k.
Proof. unfold after, arm_end. cbn. tauto. Qed.

Lemma more_none : more_ok [] [].
Proof.
  exists [], [], [], []. do 4 (split; [auto|]). intros N acc _. unfold inner_loop, outer_loop. split.
  - apply parses_loop_nil; [apply after_not_comma|apply Qa_nil].
  - apply parses_loop_nil; [intros k ->; reflexivity|apply Qa_nil].
Qed.
(** One round of the outer loop: an arm with all that follows it after commas. *)
Lemma outer_round a w1 l' w2 k : arm_ok a w1 -> more_ok l' w2 -> forall N acc, (List.length (lines k ++ w1 ++ w2) <= N)%nat ->
  parses (outer_loop N acc) (lines k ++ w1 ++ w2) (fun k => k = TFim) (Qa acc (a :: l')).
Proof.
  intros [(w & ws' & -> & Hw) Ha] (l1 & l2 & ws1 & ws2 & -> & -> & H1 & H2 & Hm) N acc HN.
  set (first := lines k ++ (w :: ws') ++ ws1).
  assert (Ef : exists w0 f', first = w0 :: f' /\ not_in [TFim] (fst w0) = true).
  { unfold first. destruct k; cbn; [|eexists _, _; split; [reflexivity|reflexivity]]. eexists _, _. split; [reflexivity|].
    cbn in Hw. repeat (destruct Hw as [<-|Hw]; [reflexivity|]). contradiction. }
  destruct Ef as (w0 & f' & Ef & Hc).
  replace (lines k ++ (w :: ws') ++ ws1 ++ ws2) with (first ++ ws2) by (unfold first; rewrite <- !app_assoc; reflexivity).
  unfold outer_loop. rewrite Ef. eapply parses_loop_cons with (F1 := after) (Q1 := Qa acc (a :: l1)); [exact Hc| | |].
  - rewrite <- Ef. unfold first. rewrite app_assoc. eapply parses_bind; [apply (Ha N k); len| |].
    + destruct H1 as [[_ ->]|[ws'' ->]]; [cbn; apply after_arm_end|unfold arm_end; cbn; tauto].
    + intros x Hx. eapply parses_mono; [apply (proj1 (Hm N (acc ++ [x]) ltac:(len)))|auto|]. intros r Hr. exact (Qa_cons _ _ _ _ _ Hx Hr).
  - destruct H2 as [[_ ->]|(w2' & ws'' & -> & Hw2)]; [cbn; intros kk ->; unfold after; cbn; tauto|cbn; now apply heads_after].
  - intros r1 Hr1. eapply parses_mono; [apply (proj2 (Hm N r1 ltac:(len)))|auto|]. intros r Hr. change (a :: l1 ++ l2) with ((a :: l1) ++ l2). exact (Qa_app _ _ _ _ _ Hr1 Hr).
Qed.
Lemma more_some a w1 l' w2 : arm_ok a w1 -> more_ok l' w2 -> more_ok (a :: l') (w1 ++ w2).
Proof.
  intros Ha Hm. exists [], (a :: l'), [], (w1 ++ w2). split; [reflexivity|]. split; [reflexivity|]. split; [auto|]. split.
  - right. destruct Ha as [(w & ws' & -> & Hw) _]. eexists _, _. split; [reflexivity|exact Hw].
  - intros N acc HN. split.
    + unfold inner_loop. apply parses_loop_nil; [apply after_not_comma|apply Qa_nil].
    + apply (outer_round a w1 l' w2 0 Ha Hm N acc HN).
Qed.
Lemma more_comma a w1 l' w2 k : arm_ok a w1 -> more_ok l' w2 -> more_ok (a :: l') (w_comma :: lines k ++ w1 ++ w2).
Proof.
  intros [(w & ws' & -> & Hw) Ha] (l1 & l2 & ws1 & ws2 & -> & -> & H1 & H2 & Hm).
  exists (a :: l1), l2, (w_comma :: lines k ++ (w :: ws') ++ ws1), ws2. split; [reflexivity|].
  split; [cbn; rewrite <- !app_assoc; cbn; rewrite <- !app_assoc; reflexivity|]. split; [right; eauto|]. split; [exact H2|].
  intros N acc HN. split; [|apply (proj2 (Hm N acc ltac:(len)))].
  replace (w_comma :: lines k ++ (w :: ws') ++ ws1) with ((w_comma :: (lines k ++ (w :: ws'))) ++ ws1) by (cbn; rewrite <- app_assoc; reflexivity).
  unfold inner_loop. eapply parses_loop_cons with (F1 := arm_end) (Q1 := Qa acc [a]); [reflexivity| | |].
  - tok. rewrite <- (app_nil_r (lines k ++ _)). eapply parses_bind; [apply (Ha N k); len|cbn; auto|]. intros x Hx. apply parses_ret.
    eapply Qa_cons; [exact Hx|apply Qa_nil].
  - destruct H1 as [[_ ->]|[ws'' ->]]; [cbn; apply after_arm_end|unfold arm_end; cbn; tauto].
  - intros r1 Hr1. eapply parses_mono; [apply (proj1 (Hm N r1 ltac:(len)))|auto|]. intros r Hr. change (a :: l1) with ([a] ++ l1). exact (Qa_app _ _ _ _ _ Hr1 Hr).
Qed.
Lemma stmt_match e k a w1 l' w2 N : arm_ok a w1 -> more_ok l' w2 ->
  let words_ := kw TIguala "iguala" :: show 0 e ++ lines k ++ (w1 ++ w2) ++ [w_fim] in
  (List.length words_ <= N)%nat -> parses (statement U (run U N)) words_ (fun _ => True) (Qs [SMatch e (a :: l')]).
Proof.
  cbn zeta. intros Ha Hm HN. unfold statement. pick tk0 Ek. apply parses_single. unfold iguala_stmt. tok.
  eapply parses_bind; [apply parses_equality; len| |].
  - destruct k; [|reflexivity]. destruct Ha as [(w & ws' & -> & Hw) _]. cbn. cbn in Hw. repeat (destruct Hw as [<-|Hw]; [reflexivity|]). contradiction.
  - intros x Qx. replace (lines k ++ (w1 ++ w2) ++ [w_fim]) with ((lines k ++ w1 ++ w2) ++ [w_fim]) by (rewrite <- !app_assoc; reflexivity).
    eapply parses_bind; [apply (outer_round a w1 l' w2 k Ha Hm N []); len|reflexivity|]. intros r (r' & -> & Hr). tok. apply parses_ret.
    unfold Qe in Qx. cbn [shape_st]. rewrite Qx. cbn [obind].
    change (obind (all shape_arm ([] ++ r')) (fun l => Some (SMatch e l)) = Some (SMatch e (a :: l'))). cbn [app]. now rewrite Hr.
Qed.
Lemma stmt_if_match e p b els wb ws N : pt_ok p -> Blk b wb -> els_ok els ws ->
  let words_ := kw TSe "se" :: kw TIguala "iguala" :: show 0 e ++ w_arrow :: show_pt p ++ kw TEntao "entao" :: wb ++ ws ++ [w_fim] in
  (List.length words_ <= N)%nat -> parses (statement U (run U N)) words_ (fun _ => True)
    (Qs [SMatch e [(p, b); (PtName (txt "_"), match els with Some l => l | None => [] end)]]).
Proof.
  cbn zeta. intros Hp Hb Hs HN. unfold statement. pick tk0 Ek. apply parses_single. unfold se_statement. tok.
  apply parses_is. change (tk_eqb (fst (kw TIguala "iguala")) TIguala) with true. cbv iota. unfold se_iguala_stmt. tok.
  eapply parses_bind; [apply parses_equality; len|reflexivity|]. intros x Qx. tok.
  eapply parses_bind; [apply parses_pattern; [exact Hp|len]|split; discriminate|]. intros q Qq. tok. unfold Parser.block.
  eapply parses_bind; [apply Hb; len|destruct Hs as [[_ ->]|(b0 & wb0 & _ & -> & _)]; reflexivity|]. intros r Qr.
  apply (parses_orelse els ws N); [exact Hs|len|]. intros o Ho. tok. apply parses_ret.
  unfold Qe, Qp, Qs in *. cbn [shape_st all shape_pt]. rewrite Qx, Qq, Qr. cbn [obind].
  destruct o as [ro|], els as [bo|]; try contradiction; [|reflexivity]. now rewrite Ho.
Qed.

(** ** Declarations *)
Lemma parses_notes {A} notes wn (w : word) ws (K : list annot -> P A) F Q : show_notes notes wn -> In (fst w) [TFunc; TMet; TRegisto; TUniao] ->
  (forall ans, map shape_note ans = notes -> parses (K ans) (w :: ws) F Q) ->
  parses (a <- is TAt ;;
    ans <- (if a then ans <- annotations TAt ;; skip_newlines ;;; t <- look ;;
              if one_of [TFunc; TMet; TRegisto; TUniao] (t_kind t) then ret ans else error
            else ret []) ;; K ans) (wn ++ w :: ws) F Q.
Proof.
  intros Hn Hw HK. assert (Ho : one_of [TFunc; TMet; TRegisto; TUniao] (fst w) = true) by (cbn in Hw; repeat (destruct Hw as [<-|Hw]; [reflexivity|]); contradiction).
  destruct Hn as [|a l k Hl].
  - cbn [app]. apply parses_is. replace (tk_eqb (fst w) TAt) with false by (symmetry; apply neqb; intros X; rewrite X in Ho; discriminate). cbv iota.
    change (w :: ws) with ([] ++ w :: ws). eapply parses_bind with (F1 := fun _ => True) (Q1 := fun a => a = []); [now apply parses_ret|exact I|].
    intros a ->. now apply HK.
  - set (wn := flat_map (show_note (kw TAt "@")) (a :: l)).
    assert (Ew : exists wn', wn = kw TAt "@" :: wn') by (unfold wn; cbn; eauto). destruct Ew as (wn' & Ew).
    rewrite <- app_assoc. rewrite Ew. cbn [app]. apply parses_is. change (tk_eqb (fst (kw TAt "@")) TAt) with true. cbv iota.
    rewrite app_comm_cons, <- Ew, app_assoc. change (w :: ws) with ([w] ++ ws) at 1.
    intros ts rest e Ht Hg Hk. unfold words in Ht. destruct (map_eq_app _ _ _ _ Ht) as (t1 & t2 & -> & E1 & E2).
    assert (Hk2 : kind (t2 ++ rest, e) = fst w) by (destruct t2 as [|u t2]; [discriminate|]; pose proof (f_equal (hd w_nl) E2) as Eh; cbn in Eh; rewrite <- Eh; reflexivity).
    assert (H1 : parses (ans <- annotations TAt ;; skip_newlines ;;; t <- look ;; if one_of [TFunc; TMet; TRegisto; TUniao] (t_kind t) then ret ans else error)
       (wn ++ lines k) (fun k => k = fst w) (fun ans => map shape_note ans = a :: l)).
    { eapply parses_bind.
      - unfold annotations, wn. apply parses_annots with (F := fun k => k = TNewline \/ k = fst w); [reflexivity|discriminate|exact Hl|].
        intros k' [-> | ->]; [split; discriminate|]. split; intros X; rewrite X in Ho; discriminate.
      - destruct k; cbn; auto.
      - cbn beta. intros ans (r' & -> & Hr). rewrite <- (app_nil_r (lines k)). apply parses_lines; [cbn; intros k' ->; intros X; rewrite X in Ho; discriminate|].
        apply parses_look_end. intros t ->. rewrite Ho. now apply parses_ret. }
    destruct (H1 t1 (t2 ++ rest) e E1 (good_app _ _ _ Hg) Hk2) as (ans & Ea & Qa0).
    destruct (HK ans Qa0 t2 rest e E2 Hg Hk) as (r & Er & Qr). exists r. split; [|exact Qr].
    rewrite <- app_assoc. unfold bind at 1. now rewrite Ea.
Qed.
Lemma notes_head notes wn (w : word) ws : show_notes notes wn -> exists w0 ws0, wn ++ w :: ws = w0 :: ws0 /\ (w0 = w \/ fst w0 = TAt).
Proof. intros [|a l k _]; cbn; eexists _, _; (split; [reflexivity|auto]). Qed.

Lemma decl_func notes n ps r b wn wr ws N : show_notes notes wn -> show_ret r wr -> Blk b (w_nl :: ws) ->
  let words_ := wn ++ kw TFunc "func" :: w_name n :: w_lpar :: show_params ps ++ w_rpar :: wr ++ w_nl :: ws ++ [w_fim] in
  (List.length words_ <= N)%nat -> parses (declaration U (run U N)) words_ (fun _ => True) (Qs [SFunc notes n ps r b]).
Proof.
  cbn zeta. intros Hn Hr Hb HN. unfold declaration. apply (parses_notes notes); [exact Hn|cbn; tauto|]. intros ans Ha.
  pick tk0 Ek. apply parses_single. unfold function_decl. tok. apply parses_is. change (tk_eqb (fst (w_name n)) TNativa) with false. cbv iota.
  change (w_name n :: ?r) with ([] ++ w_name n :: r).
  eapply parses_bind with (F1 := fun _ => True) (Q1 := fun _ => True); [now apply parses_ret|exact I|]. intros _ _. tok. tok.
  eapply parses_bind; [apply parses_params; len|reflexivity|]. intros qs Qq. tok.
  apply parses_ret_ty with (r := r); [exact Hr|now left|len|]. intros y Hy. rewrite app_comm_cons. unfold Parser.block.
  eapply parses_bind; [apply Hb; len|reflexivity|]. intros rb Qb. tok. apply parses_ret. unfold Qs in Qb. cbn [shape_st]. rewrite Qb. cbn [obind].
  now rewrite Ha, Qq, Hy, (lex_name _ _ Et0).
Qed.
Lemma decl_native n ps r wr w N : show_ret r wr -> closes w ->
  let words_ := kw TFunc "func" :: kw TNativa "nativa" :: w_name n :: w_lpar :: show_params ps ++ w_rpar :: wr ++ [w] in
  (List.length words_ <= N)%nat -> parses (declaration U (run U N)) words_ (fun _ => True) (Qs [SNative n ps r]).
Proof.
  cbn zeta. intros Hr Hw HN. unfold declaration. change (kw TFunc "func" :: ?x) with ([] ++ kw TFunc "func" :: x).
  apply (parses_notes []); [constructor|cbn; tauto|]. intros ans _.
  pick tk0 Ek. apply parses_single. unfold function_decl. tok. apply parses_is. change (tk_eqb (fst (kw TNativa "nativa")) TNativa) with true. cbv iota.
  change (kw TNativa "nativa" :: ?r) with ([kw TNativa "nativa"] ++ r).
  eapply parses_bind with (F1 := fun _ => True) (Q1 := fun _ => True); [tok; now apply parses_ret|exact I|]. intros _ _. tok. tok.
  eapply parses_bind; [apply parses_params; len|reflexivity|]. intros qs Qq. tok.
  apply parses_ret_ty with (r := r); [exact Hr|exact Hw|len|]. intros y Hy. apply parses_end; [exact Hw|].
  cbn [shape_st]. now rewrite Qq, Hy, (lex_name _ _ Et0).
Qed.
Lemma type_head t ws : (forall el q, t <> TyList el q) -> exists w ws', show_ty t ++ ws = w :: ws' /\ fst w <> TLbracket.
Proof. intros H. destruct t; cbn; try (eexists _, _; split; [reflexivity|discriminate]). exfalso. eapply H. reflexivity. Qed.
Lemma decl_method notes gs t n ps r b wn ws N : show_notes notes wn -> Blk b (w_nl :: ws) -> (gs = [] -> forall el q, t <> TyList el q) ->
  let words_ := wn ++ kw TMet "met" :: show_gs gs ++ show_ty t ++ w_path :: w_name n :: w_lpar :: kw TAlvo "alvo" ::
       match ps with [] => [] | _ => w_comma :: show_params ps end ++ w_rpar :: show_ret_met r ++ w_nl :: ws ++ [w_fim] in
  (List.length words_ <= N)%nat -> parses (declaration U (run U N)) words_ (fun _ => True) (Qs [SMethod notes gs t n ps r b]).
Proof.
  cbn zeta. intros Hn Hb Hg HN. unfold declaration. apply (parses_notes notes); [exact Hn|cbn; tauto|]. intros ans Ha.
  pick tk0 Ek. apply parses_single. unfold method_decl. tok.
  eapply parses_bind; [apply parses_gparams| |].
  { destruct t as [tn dots args q|el q]; [cbn; discriminate|]. cbn. intros E. exfalso. exact (Hg E _ _ eq_refl). }
  cbn beta. intros g Qg. eapply parses_bind; [apply parses_type; len|reflexivity|]. intros y Hy. tok. tok. tok. tok.
  assert (Fin : forall qs, map shape_param qs = ps -> parses (consume TRpar ;;; c <- is TColon ;;
      rt <- (if c then consume TColon ;;; t <- type_ (run U N) ;; ret (Some t) else ret None) ;; b <- Parser.block (run U N) ;; consume TFim ;;;
      ret (XMet g y t2 qs rt ans (XBlock b))) (w_rpar :: show_ret_met r ++ w_nl :: ws ++ [w_fim]) (fun _ => True)
      (fun x => shape_st x = Some (SMethod notes gs t n ps r b))).
  { intros qs Qq. tok. apply parses_ret_met with (r := r); [len|]. intros z Hz. rewrite app_comm_cons. unfold Parser.block.
    eapply parses_bind; [apply Hb; len|reflexivity|]. intros rb Qb. tok. apply parses_ret. unfold Qs in Qb. cbn [shape_st]. rewrite Qb. cbn [obind].
    now rewrite Ha, Qq, Hy, Hz, Qg, (lex_name _ _ Et1). }
  destruct ps as [|p ps].
  - cbn [app]. apply parses_is. change (tk_eqb (fst w_rpar) TComma) with false. cbv iota. change (w_rpar :: ?x) with ([] ++ w_rpar :: x).
    eapply parses_bind with (F1 := fun _ => True) (Q1 := fun o => o = []); [now apply parses_ret|exact I|]. intros o ->. now apply Fin.
  - cbn [app]. apply parses_is. change (tk_eqb (fst w_comma) TComma) with true. cbv iota. rewrite app_comm_cons.
    eapply parses_bind with (F1 := fun k => k = TRpar) (Q1 := fun r => map shape_param r = p :: ps); [tok; apply parses_params; len|reflexivity|]. exact Fin.
Qed.
Lemma fields_head fs ws : show_fields fs ws -> exists w ws', ws ++ [w_fim] = w :: ws' /\ fst w <> TLbracket.
Proof. intros [k|k n t v w l ws0 _ _|k n m ns t w l ws0 _ _]; destruct k; cbn; eexists _, _; (split; [reflexivity|discriminate]). Qed.
Lemma decl_record notes n gs fs wn ws N : show_notes notes wn -> show_fields fs ws ->
  let words_ := wn ++ kw TRegisto "registo" :: w_name n :: show_gs gs ++ ws ++ [w_fim] in
  (List.length words_ <= N)%nat -> parses (declaration U (run U N)) words_ (fun _ => True) (Qs [SRecord notes n gs fs]).
Proof.
  cbn zeta. intros Hn Hf HN. unfold declaration. apply (parses_notes notes); [exact Hn|cbn; tauto|]. intros ans Ha.
  pick tk0 Ek. apply parses_single. unfold registo_decl. tok. tok.
  eapply parses_bind; [apply parses_gparams|destruct (fields_head _ _ Hf) as (w & ws' & -> & Hw); cbn; auto|]. cbn beta. intros g Qg.
  eapply parses_bind; [unfold registo_body; apply (parses_fields U fs ws N [] Hf); len|reflexivity|]. cbn beta. intros l (r' & -> & Hr). tok. apply parses_ret.
  cbn [shape_st app]. rewrite Hr. cbn [obind]. now rewrite Ha, Qg, (lex_name _ _ Et0).
Qed.
Lemma union_head vs ws : show_union vs ws -> exists w ws', ws ++ [w_fim] = w :: ws' /\ fst w <> TLbracket.
Proof.
  intros [k|k l ws0 H]; [destruct k; cbn; eexists _, _; (split; [reflexivity|discriminate])|].
  destruct k; [|cbn; eexists _, _; (split; [reflexivity|discriminate])]. cbn [lines repeat app].
  destruct (parses_vloop U l ws0 (List.length ws0) H (le_n _)) as (v & l' & wt & _ & -> & _). unfold show_variant. cbn.
  eexists _, _. split; [reflexivity|discriminate].
Qed.
Lemma decl_union notes n gs vs wn ws N : show_notes notes wn -> show_union vs ws ->
  let words_ := wn ++ kw TUniao "uniao" :: w_name n :: show_gs gs ++ ws ++ [w_fim] in
  (List.length words_ <= N)%nat -> parses (declaration U (run U N)) words_ (fun _ => True) (Qs [SUnion notes n gs vs]).
Proof.
  cbn zeta. intros Hn Hf HN. unfold declaration. apply (parses_notes notes); [exact Hn|cbn; tauto|]. intros ans Ha.
  pick tk0 Ek. apply parses_single. unfold uniao_decl. tok. tok.
  eapply parses_bind; [apply parses_gparams|destruct (union_head _ _ Hf) as (w & ws' & -> & Hw); cbn; auto|]. cbn beta. intros g Qg.
  eapply parses_bind; [apply (parses_union U vs ws N Hf); len|reflexivity|]. cbn beta. intros l Hr. tok. apply parses_ret.
  cbn [shape_st]. now rewrite Ha, Qg, Hr, (lex_name _ _ Et0).
Qed.

(** ** All of it *)
Lemma PW_statement l (w : word) ws : ~ In (fst w) [TAt; TFunc; TMet; TRegisto; TUniao] -> ~ In (fst w) (TNewline :: block_end) ->
  fst w <> TUsa -> fst w <> TDoubleAt ->
  (forall N, (List.length (w :: ws) <= N)%nat -> parses (statement U (run U N)) (w :: ws) (fun _ => True) (Qs l)) -> PW l (w :: ws).
Proof.
  intros H1 H2 H3 H4 H. split; [eexists _, _; repeat (split; [auto|]); auto|]. intros N HN. apply declaration_statement; [exact H1|]. now apply H.
Qed.
Lemma PW_decl l notes wn (w : word) ws : show_notes notes wn -> In (fst w) [TFunc; TMet; TRegisto; TUniao] ->
  (forall N, (List.length (wn ++ w :: ws) <= N)%nat -> parses (declaration U (run U N)) (wn ++ w :: ws) (fun _ => True) (Qs l)) -> PW l (wn ++ w :: ws).
Proof.
  intros Hn Hw H. split; [|exact H]. destruct (notes_head _ _ w ws Hn) as (w0 & ws0 & -> & [-> |E]); eexists _, _; (split; [reflexivity|]).
  - cbn in Hw. repeat (destruct Hw as [<-|Hw]; [split; [cbn; intuition discriminate|split; discriminate]|]). contradiction.
  - rewrite E. split; [cbn; intuition discriminate|split; discriminate].
Qed.
Lemma PW_simple l ws w : simple l ws -> closes w -> PW l (ws ++ [w]).
Proof.
  intros H Hw. split; [|intros N HN; now apply closed_simple]. destruct (simple_starts _ _ H) as (w0 & ws0 & -> & Hs).
  destruct (starts_fine _ Hs) as (_ & _ & H3). cbn [app]. eexists _, _. split; [reflexivity|]. split; [exact H3|].
  cbn in Hs. repeat (destruct Hs as [<-|Hs]; [split; discriminate|]). contradiction.
Qed.
Lemma stmt_ret w N : closes w -> parses (statement U (run U N)) [kw TRetorna "retorna"; w] (fun _ => True) (Qs [SRet None]).
Proof.
  intros Hw. unfold statement. pick tk0 Ek. tok. apply parses_look. intros t' Et'.
  assert (Ek' : t_kind t' = fst w) by (rewrite <- Et'; reflexivity). rewrite Ek'.
  replace (one_of [TSemi; TNewline] (fst w)) with true by (destruct Hw as [-> | ->]; reflexivity). change [w] with ([] ++ [w]).
  eapply parses_bind with (F1 := fun _ => True) (Q1 := fun o => o = None); [now apply parses_ret|exact I|]. intros o ->. now apply parses_end.
Qed.

Scheme writes_m := Minimality for writes Sort Prop
  with block_m := Minimality for Spec_Program.block Sort Prop
  with elses_m := Minimality for elses Sort Prop
  with orelse_m := Minimality for orelse Sort Prop
  with cases_m := Minimality for cases Sort Prop
  with default_m := Minimality for default Sort Prop
  with arm_m := Minimality for arm Sort Prop
  with matches_m := Minimality for matches Sort Prop
  with more_m := Minimality for more Sort Prop.
Combined Scheme written_m from writes_m, block_m, elses_m, orelse_m, cases_m, default_m, arm_m, matches_m, more_m.

Definition matches_ok (l : list (pt * list st)) (ws : list word) : Prop :=
  exists a l' w1 w2, l = a :: l' /\ ws = w1 ++ w2 /\ arm_ok a w1 /\ more_ok l' w2.

Ltac stm := apply PW_statement; [cbn; intuition discriminate|cbn; intuition discriminate|discriminate|discriminate|].
Theorem written_ok :
  (forall l ws, writes l ws -> PW l ws) /\ (forall l ws, Spec_Program.block l ws -> PB l ws) /\ (forall l ws, elses l ws -> elifs_ok l ws) /\
  (forall o ws, orelse o ws -> els_ok o ws) /\ (forall l ws, cases l ws -> casos_ok l ws) /\ (forall o ws, default o ws -> dflt_ok o ws) /\
  (forall a ws, arm a ws -> arm_ok a ws) /\ (forall l ws, matches l ws -> matches_ok l ws) /\ (forall l ws, more l ws -> more_ok l ws).
Proof.
  apply written_m.
  - intros. now apply PW_simple.
  - intros. stm. intros N _. now apply stmt_ret.
  - intros c b ws _ Hb. stm. intros N HN. apply stmt_while; [now apply PB_Blk|exact HN].
  - intros c b elifs els wb we ws _ Hb _ He _ Ho. stm. intros N HN. apply stmt_if; [now apply PB_Blk|exact He|exact Ho|exact HN].
  - intros n a z step b ws _ Hb. stm. intros N HN. apply stmt_for; [now apply PB_Blk|exact HN].
  - intros. stm. intros N HN. apply stmt_switch; assumption.
  - intros e k l ws _ (a & l' & w1 & w2 & -> & -> & Ha & Hm). stm. intros N HN. now apply stmt_match.
  - intros e p b els wb ws Hp _ Hb _ Ho. stm. intros N HN. apply stmt_if_match; [exact Hp|now apply PB_Blk|exact Ho|exact HN].
  - intros notes n ps r b wn wr ws Hn Hr _ Hb. apply (PW_decl _ notes); [exact Hn|cbn; tauto|]. intros N HN. apply decl_func; [exact Hn|exact Hr|apply PB_Blk, PB_line, Hb|exact HN].
  - intros n ps r wr w Hr Hw. change (kw TFunc "func" :: ?x) with ([] ++ kw TFunc "func" :: x). apply (PW_decl _ []); [constructor|cbn; tauto|]. intros N HN. now apply decl_native.
  - intros notes gs t n ps r b wn ws Hn _ Hb Hg. apply (PW_decl _ notes); [exact Hn|cbn; tauto|]. intros N HN.
    apply decl_method; [exact Hn|apply PB_Blk, PB_line, Hb|exact Hg|exact HN].
  - intros notes n gs fs wn ws Hn Hf. apply (PW_decl _ notes); [exact Hn|cbn; tauto|]. intros N HN. now apply decl_record.
  - intros notes n gs fs wn ws Hn Hf. apply (PW_decl _ notes); [exact Hn|cbn; tauto|]. intros N HN. now apply decl_union.
  - exact PB_nil.
  - intros l ws _ H. now apply PB_line.
  - intros l ws l' ws' _ H _ H'. now apply PB_cons.
  - exact elifs_nil.
  - intros c b l wb ws _ Hb _ Hl. apply elifs_cons; [now apply PB_Blk|exact Hl].
  - left. auto.
  - intros b ws _ Hb. right. exists b, ws. repeat split. now apply PB_Blk.
  - exact casos_nil.
  - intros c b l wb ws _ Hb _ Hl. apply casos_cons; [now apply PB_Blk|exact Hl].
  - left. auto.
  - intros b ws _ Hb. right. exists b, ws. repeat split. now apply PB_Blk.
  - intros. now apply arm_expr.
  - intros k k' p b ws Hp _ Hb. apply arm_block; [exact Hp|now apply PB_Blk].
  - intros a l ws ws' _ Ha _ Hm. exists a, l, ws, ws'. auto.
  - exact more_none.
  - intros l ws _ (a & l' & w1 & w2 & -> & -> & Ha & Hm). now apply more_some.
  - intros k l ws _ (a & l' & w1 & w2 & -> & -> & Ha & Hm). now apply more_comma.
Qed.

(** ** A program *)
Lemma declaration_eq R s : ~ In (kind s) [TAt; TFunc; TMet; TRegisto; TUniao] -> declaration U R s = statement U R s.
Proof.
  intros H. unfold declaration, bind at 1, is. rewrite neqb by (intros X; apply H; rewrite X; cbn; tauto). unfold bind at 1, ret. unfold bind at 1, look.
  change (t_kind (look_tok s)) with (kind s). destruct (kind s); try reflexivity; exfalso; apply H; cbn; tauto.
Qed.
Lemma open_simple l ws N : simple l ws -> (List.length ws <= N)%nat -> whole (declaration U (run U N)) ws (Qs l).
Proof.
  intros H HN ts t Ht Et. destruct (simple_starts _ _ H) as (w0 & ws0 & E & Hs). destruct (starts_fine _ Hs) as (H1 & H2 & _).
  assert (Ek : kind (ts, EEof t) = fst w0).
  { rewrite E in Ht. destruct ts as [|u ts]; [discriminate|]. pose proof (f_equal (hd w_nl) Ht) as Eh. cbn in Eh. rewrite <- Eh. reflexivity. }
  rewrite declaration_eq by now rewrite Ek. rewrite statement_pre by now rewrite Ek.
  assert (W : whole (bind (pre U (run U N)) (fun l => end_stmt ;;; ret l)) (ws ++ []) (Qs l)).
  { eapply whole_bind; [apply (parses_simple U l ws N H); exact HN|cbn; intros k ->; unfold ends; auto|]. intros r Qr. now apply whole_end_stmt. }
  rewrite app_nil_r in W. exact (W ts t Ht Et).
Qed.
Lemma good_eof ts t : t_kind t = TEof -> good ts (EEof t).
Proof. intros H. right. eauto. Qed.
Lemma children_rounds R k ts t r : t_kind t = TEof -> (k <= S (List.length ts))%nat ->
  rounds (not_in [TEof]) (cbody R) k [] (ts, EEof t) r ([], EEof t) -> children U R [TEof] (ts, EEof t) = POk r ([], EEof t).
Proof.
  intros Et Hk Hr. unfold children, loop. apply while_loops with (k := k); [apply rounds_loops; [exact Hr|]|cbn [fst]; lia].
  unfold kind, look_tok. cbn. rewrite Et. reflexivity.
Qed.
Lemma body_ok l wb N : body_words l wb -> (List.length wb <= N)%nat -> whole (children U (run U N) [TEof]) wb (Qs l).
Proof.
  intros [l0 ws H|l0 ws l' ws' H Hs] HN ts t Ht Et; pose proof (proj1 (proj2 written_ok) _ _ H) as HB.
  - destruct (HB N [TEof] (or_intror eq_refl) HN ts [] (EEof t) [] Ht (good_eof _ _ Et)) as (k & r & Hl & Hr & Qr).
    rewrite app_nil_r in Hr. exists r. split; [|exact Qr]. apply (children_rounds _ k); [exact Et|lia|exact Hr].
  - unfold words in Ht. destruct (map_eq_app _ _ _ _ Ht) as (t1 & t2 & -> & E1 & E2). rewrite app_length in HN.
    destruct (HB N [TEof] (or_intror eq_refl) ltac:(lia) t1 t2 (EEof t) [] E1 (good_eof _ _ Et)) as (k & r & Hl & Hr & Qr).
    destruct (open_simple l' ws' N Hs ltac:(lia) t2 t E2 Et) as (x & Ex & Qx).
    destruct (simple_starts _ _ Hs) as (w0 & ws0 & E & Hst). destruct (starts_fine _ Hst) as (_ & _ & H3).
    destruct t2 as [|u t2]; [rewrite E in E2; discriminate|].
    assert (Ek : kind (u :: t2, EEof t) = fst w0) by (rewrite E in E2; pose proof (f_equal (hd w_nl) E2) as Eh; cbn in Eh; rewrite <- Eh; reflexivity).
    destruct (stop_start [TEof] (fst w0) (or_intror eq_refl) H3) as [S1 S2].
    exists (r ++ x). split; [|now apply all_app]. apply (children_rounds _ (k + 1)); [exact Et|rewrite app_length; lia|].
    eapply rounds_app; [exact Hr|]. econstructor; [rewrite Ek; exact S1| |constructor].
    unfold cbody, bind at 1, is. rewrite Ek, S2. unfold bind. rewrite Ex. reflexivity.
Qed.
(** Where the empty lines before a body end. *)
Definition fine (w : word) : Prop := fst w <> TNewline /\ fst w <> TUsa /\ fst w <> TDoubleAt.
Lemma simple_fine l (w : word) ws : simple l (w :: ws) -> fine w.
Proof.
  intros H. destruct (simple_starts _ _ H) as (w0 & ws0 & E & Hs). injection E as E E'. subst w0. unfold fine.
  cbn in Hs. repeat (destruct Hs as [<-|Hs]; [repeat split; discriminate|]). contradiction.
Qed.
Lemma block_lead l ws : Spec_Program.block l ws -> exists j ws', ws = lines j ++ ws' /\ Spec_Program.block l ws' /\ (ws' = [] \/ exists w r, ws' = w :: r /\ fine w).
Proof.
  induction 1 as [|l ws _ (j & ws' & -> & H & Hh)|l ws l' ws' H Hblk _].
  - exists 0%nat, []. split; [reflexivity|]. split; [constructor|now left].
  - exists (Datatypes.S j), ws'. auto.
  - exists 0%nat, (ws ++ ws'). split; [reflexivity|]. split; [now apply bl_cons|]. right.
    destruct (proj1 written_ok _ _ H) as [(w & r & -> & Hw & Hu & Hd) _]. cbn [app]. eexists _, _. split; [reflexivity|]. split; [|auto].
    intros X. apply Hw. rewrite X. now left.
Qed.
Lemma body_lead l ws : body_words l ws -> exists j ws', ws = lines j ++ ws' /\ body_words l ws' /\ (ws' = [] \/ exists w r, ws' = w :: r /\ fine w).
Proof.
  intros [l0 ws0 H|l0 ws0 l' ws' H Hs]; destruct (block_lead _ _ H) as (j & wr & -> & H' & Hh).
  - exists j, wr. split; [reflexivity|]. split; [now constructor|exact Hh].
  - exists j, (wr ++ ws'). split; [now rewrite app_assoc|]. split; [now apply bw_open|]. right.
    destruct Hh as [-> |(w & r & -> & Hw)]; [|cbn [app]; eexists _, _; split; [reflexivity|exact Hw]].
    cbn [app]. destruct ws' as [|w r]; [destruct (simple_starts _ _ Hs) as (? & ? & ? & _); discriminate|]. eexists _, _. split; [reflexivity|]. eapply simple_fine; eassumption.
Qed.
Lemma lead_meets ws (G : tk -> Prop) : (ws = [] \/ exists w r, ws = w :: r /\ fine w) ->
  (forall k, k <> TNewline /\ k <> TUsa /\ k <> TDoubleAt -> G k) -> meets ws at_eof G.
Proof. intros [-> |(w & r & -> & Hw)] HG; cbn; [intros k ->; apply HG; repeat split; discriminate|now apply HG]. Qed.
Lemma parses_skips k : parses skip_newlines (lines k) (fun k => k <> TNewline) (fun _ => True).
Proof.
  assert (H : parses (skip_newlines ;;; ret tt) (lines k ++ []) (fun k => k <> TNewline) (fun _ => True)) by (apply parses_lines; [cbn; auto|now apply parses_ret]).
  rewrite app_nil_r in H. intros ts rest e Ht Hg Hk. destruct (H ts rest e Ht Hg Hk) as (a & Ea & _).
  unfold bind in Ea. destruct (skip_newlines (ts ++ rest, e)) as [u s| | |] eqn:E; try discriminate. injection Ea as _ ->. destruct u. eauto.
Qed.
Lemma whole_ret {A} (a : A) (Q : A -> Prop) : Q a -> whole (ret a) [] Q.
Proof. intros H ts t Ht _. destruct ts; [|discriminate]. exists a. auto. Qed.
Lemma whole_seq {A B} (m : P A) (f : A -> P B) ws Q1 Q2 : whole m ws Q1 -> (forall a, Q1 a -> whole (f a) [] Q2) -> whole (bind m f) ws Q2.
Proof.
  intros H1 H2 ts t Ht Et. destruct (H1 ts t Ht Et) as (a & Ea & Qa0). destruct (H2 a Qa0 [] t eq_refl Et) as (b & Eb & Qb).
  exists b. split; [|exact Qb]. unfold bind. now rewrite Ea.
Qed.

Theorem program_read p ws N : program_words p ws -> (List.length ws <= N)%nat -> whole (module_ U (run U N)) ws (fun m => stands_for m p).
Proof.
  intros [notes is l k wi wb Hn Hi Hb Hc] HN.
  destruct (body_lead _ _ Hb) as (j & wb' & Ewb & Hb' & Hh).
  assert (Last : forall ans us w l, map shape_note ans = notes -> all shape_import us = Some is -> body_words l w -> (List.length w <= N)%nat ->
    whole (c <- children U (run U N) [TEof] ;; ret (mkModule ans (us ++ c))) w (fun m => stands_for m (mkProgram notes is l))).
  { intros ans us w l0 H1 H2 H3 H4. eapply whole_seq; [apply body_ok; eassumption|]. intros c Qc. apply whole_ret. split; [exact H1|]. exists us, c. auto. }
  assert (Notes : forall (F : tk -> Prop), (forall k', F k' -> k' <> TDoubleAt /\ k' <> TLpar) -> parses (annotations TDoubleAt) (flat_map (show_note (kw TDoubleAt "@@")) notes) F
    (fun r => map shape_note r = notes)).
  { intros F HF. eapply parses_mono; [unfold annotations; apply parses_annots with (F := F); [reflexivity|discriminate|exact Hn|exact HF]|auto|]. cbn beta. intros r (r' & -> & Hr). exact Hr. }
  unfold module_.
  destruct is as [|i is].
  - inversion Hi; subst wi. cbn [app] in *. destruct notes as [|a notes].
    + cbn [flat_map app] in *. rewrite Ewb in *. rewrite app_assoc, lines_app.
      eapply whole_bind; [apply parses_skips|apply lead_meets; [exact Hh|intros k' Hk'; apply Hk']|]. intros _ _. change wb' with ([] ++ wb').
      eapply whole_bind with (F1 := fun k => k <> TDoubleAt) (Q1 := fun r => r = []).
      * unfold annotations. apply parses_loop_nil; [intros k' Hk'; unfold one_of; cbn; now rewrite neqb|reflexivity].
      * cbn [app]. apply lead_meets; [exact Hh|tauto].
      * intros ans ->. change wb' with ([] ++ wb'). eapply whole_bind with (F1 := fun k => k <> TUsa) (Q1 := fun r => r = []).
        -- apply parses_loop_nil; [intros k' Hk'; unfold one_of; cbn; now rewrite neqb|reflexivity].
        -- cbn [app]. apply lead_meets; [exact Hh|tauto].
        -- intros us ->. cbn [app]. apply (Last [] []); [reflexivity|reflexivity|exact Hb'|len].
    + destruct (Hc ltac:(discriminate) eq_refl) as (wb0 & Ew0).
      eapply whole_bind; [apply parses_skips|discriminate|]. intros _ _.
      eapply whole_bind; [apply (Notes (fun k => k = TNewline)); intros k' ->; split; discriminate|rewrite Ew0; reflexivity|]. intros ans Qn. change wb with ([] ++ wb).
      eapply whole_bind with (F1 := fun k => k = TNewline) (Q1 := fun r => r = []).
      * apply parses_loop_nil; [intros k' ->; reflexivity|reflexivity].
      * cbn [app]. rewrite Ew0. reflexivity.
      * intros us ->. cbn [app]. apply (Last ans []); [exact Qn|reflexivity|exact Hb|len].
  - assert (Eu : exists wi', wi = kw TUsa "usa" :: wi').
    { inversion Hi as [|i0 l0 wa wa' Hi1 Hi2]; subst. destruct Hi1; cbn; eauto. }
    destruct Eu as (wi' & Eu).
    eapply whole_bind; [apply parses_skips|destruct notes; [rewrite Eu|]; discriminate|]. intros _ _.
    eapply whole_bind; [apply (Notes (fun k => k = TUsa)); intros k' ->; split; discriminate|rewrite Eu; reflexivity|]. intros ans Qn.
    rewrite Ewb in *. rewrite app_assoc.
    eapply whole_bind; [apply (parses_imports (i :: is) wi [] j (fun k => k <> TNewline /\ k <> TUsa)); [exact Hi|left; discriminate|auto]|apply lead_meets; [exact Hh|tauto]|].
    cbn beta. intros us (r' & -> & Hr). cbn [app]. apply (Last ans r'); [exact Qn|exact Hr|exact Hb'|len].
Qed.
End Prog.
