(** Induction over the source tree, and reading computations of the analyser
    backwards. *)
From Verif Require Import Base Dec Bson Value Ast Types Syntax Sym Exhaust Check.
Local Open Scope chk_scope.

Definition oP {A} (P : A -> Prop) (o : option A) : Prop := match o with Some x => P x | None => True end.
Section Ind.
Variable P : sx -> Prop.
Hypothesis HConst : forall t, P (XConst t).
Hypothesis HPart : forall t, P (XPart t).
Hypothesis HVar : forall t, P (XVar t).
Hypothesis HPath : forall h l, P (XPath h l).
Hypothesis HAlvo : forall t, P (XAlvo t).
Hypothesis HUn : forall t e, P e -> P (XUn t e).
Hypothesis HBin : forall t l r, P l -> P r -> P (XBin t l r).
Hypothesis HCall : forall f l, P f -> Forall P l -> P (XCall f l).
Hypothesis HNamed : forall n e, P e -> P (XNamed n e).
Hypothesis HConv : forall t e y, P e -> P (XConv t e y).
Hypothesis HIndex : forall t a i, P a -> P i -> P (XIndex t a i).
Hypothesis HIndexSet : forall t a v, P a -> P v -> P (XIndexSet t a v).
Hypothesis HGet : forall a m, P a -> P (XGet a m).
Hypothesis HSet : forall a v, P a -> P v -> P (XSet a v).
Hypothesis HFmt : forall t l, Forall P l -> P (XFmt t l).
Hypothesis HList : forall t y l, Forall P l -> P (XList t y l).
Hypothesis HAssign : forall t l r, P l -> P r -> P (XAssign t l r).
Hypothesis HIguala : forall t e l, P e -> Forall P l -> P (XIguala t e l).
Hypothesis HArm : forall t p b, P b -> P (XArm t p b).
Hypothesis HYield : forall ln t l, Forall P l -> P (XYield ln t l).
Hypothesis HDecl : forall t n y o, oP (fun q => P (snd q)) o -> P (XDecl t n y o).
Hypothesis HMostra : forall t e, P e -> P (XMostra t e).
Hypothesis HRet : forall t o, oP P o -> P (XRet t o).
Hypothesis HProduz : forall t e, P e -> P (XProduz t e).
Hypothesis HLoopCtl : forall t, P (XLoopCtl t).
Hypothesis HSe : forall t c th l o, P c -> P th -> Forall P l -> oP P o -> P (XSe t c th l o).
Hypothesis HSenaoSe : forall t c b, P c -> P b -> P (XSenaoSe t c b).
Hypothesis HEnquanto : forall t c b, P c -> P b -> P (XEnquanto t c b).
Hypothesis HPara : forall t n a z o b, P a -> P z -> oP P o -> P b -> P (XPara t n a z o b).
Hypothesis HEscolha : forall t e l o, P e -> Forall P l -> oP P o -> P (XEscolha t e l o).
Hypothesis HCaso : forall t e b, P e -> P b -> P (XCaso t e b).
Hypothesis HBlock : forall l, Forall P l -> P (XBlock l).
Hypothesis HFunc : forall n ps y nat ans o, oP P o -> P (XFunc n ps y nat ans o).
Hypothesis HMet : forall g y n ps r ans b, P b -> P (XMet g y n ps r ans b).
Hypothesis HReg : forall n g l ans, Forall P l -> P (XReg n g l ans).
Hypothesis HUni : forall n g l ans, P (XUni n g l ans).
Hypothesis HUsa : forall t m w, P (XUsa t m w).
Fixpoint sx_ind' (x : sx) : P x :=
  let all := fix go (l : list sx) : Forall P l := match l with [] => Forall_nil P | y :: r => Forall_cons y (sx_ind' y) (go r) end in
  let opt (o : option sx) : oP P o := match o with Some y => sx_ind' y | None => I end in
  match x with
  | XConst t => HConst t | XPart t => HPart t | XVar t => HVar t | XPath h l => HPath h l | XAlvo t => HAlvo t
  | XUn t e => HUn t e (sx_ind' e) | XBin t l r => HBin t l r (sx_ind' l) (sx_ind' r)
  | XCall f l => HCall f l (sx_ind' f) (all l) | XNamed n e => HNamed n e (sx_ind' e) | XConv t e y => HConv t e y (sx_ind' e)
  | XIndex t a i => HIndex t a i (sx_ind' a) (sx_ind' i) | XIndexSet t a v => HIndexSet t a v (sx_ind' a) (sx_ind' v)
  | XGet a m => HGet a m (sx_ind' a) | XSet a v => HSet a v (sx_ind' a) (sx_ind' v)
  | XFmt t l => HFmt t l (all l) | XList t y l => HList t y l (all l) | XAssign t l r => HAssign t l r (sx_ind' l) (sx_ind' r)
  | XIguala t e l => HIguala t e l (sx_ind' e) (all l) | XArm t p b => HArm t p b (sx_ind' b) | XYield ln t l => HYield ln t l (all l)
  | XDecl t n y o => HDecl t n y o (match o with Some q => sx_ind' (snd q) | None => I end)
  | XMostra t e => HMostra t e (sx_ind' e) | XRet t o => HRet t o (opt o) | XProduz t e => HProduz t e (sx_ind' e)
  | XLoopCtl t => HLoopCtl t | XSe t c th l o => HSe t c th l o (sx_ind' c) (sx_ind' th) (all l) (opt o)
  | XSenaoSe t c b => HSenaoSe t c b (sx_ind' c) (sx_ind' b) | XEnquanto t c b => HEnquanto t c b (sx_ind' c) (sx_ind' b)
  | XPara t n a z o b => HPara t n a z o b (sx_ind' a) (sx_ind' z) (opt o) (sx_ind' b)
  | XEscolha t e l o => HEscolha t e l o (sx_ind' e) (all l) (opt o) | XCaso t e b => HCaso t e b (sx_ind' e) (sx_ind' b)
  | XBlock l => HBlock l (all l) | XFunc n ps y nat ans o => HFunc n ps y nat ans o (opt o)
  | XMet g y n ps r ans b => HMet g y n ps r ans b (sx_ind' b) | XReg n g l ans => HReg n g l ans (all l)
  | XUni n g l ans => HUni n g l ans | XUsa t m w => HUsa t m w
  end.
End Ind.

(** ** Inversion *)
Definition reline (s : sst) (l : Z) : sst :=
  mkSst (sst_st s) (mkCx (cx_global (sst_cx s)) (cx_depth (sst_cx s)) (cx_scope (sst_cx s)) l (cx_reg (sst_cx s)) (cx_func (sst_cx s))
                         (cx_yield (sst_cx s)) (cx_loop (sst_cx s)) (cx_module (sst_cx s)) (cx_ty (sst_cx s))).
Lemma cbind_inv {A B} (m : M A) (f : A -> M B) s b s' : cbind m f s = COk b s' -> exists a s1, m s = COk a s1 /\ f a s1 = COk b s'.
Proof. unfold cbind. destruct (m s) as [a s1|? ?| |]; try discriminate. eauto. Qed.
Lemma must_inv {A} (o : option A) s a s' : must o s = COk a s' -> o = Some a /\ s' = s.
Proof. destruct o; cbn; [|discriminate]. intros H. injection H as <- <-. auto. Qed.
Lemma py_inv {A} (o : pyres A) s a s' : py o s = COk a s' -> o = PyOk a /\ s' = s.
Proof. destruct o; cbn; [|discriminate]. intros H. injection H as <- <-. auto. Qed.
Lemma cret_inv {A} (a : A) s b s' : cret a s = COk b s' -> b = a /\ s' = s.
Proof. cbn. intros H. injection H as <- <-. auto. Qed.
Lemma sym_at_inv i s x s' : sym_at i s = COk x s' -> nth_error (so_syms (sst_st s)) i = Some x /\ s' = s.
Proof. unfold sym_at. cbn. apply must_inv. Qed.
Lemma match_ty_inv a b s ok s' : match_ty a b s = COk ok s' -> types_match (strip (sst_st s) a) (strip (sst_st s) b) = PyOk ok /\ s' = s.
Proof. unfold match_ty. cbn. apply py_inv. Qed.
Lemma promotes_inv a b s ok s' : promotes a b s = COk ok s' -> s' = s.
Proof. unfold promotes. cbn. intros H. apply py_inv in H as [_ H]. exact H. Qed.
Lemma tag_inv t s p s' : tag_of t s = COk p s' -> t = CPrim p /\ s' = s.
Proof. destruct t; cbn; try discriminate. intros H. injection H as <- <-. auto. Qed.
Lemma named_inv o s t s' : named_type o s = COk t s' -> exists i x, o = Some i /\ nth_error (so_syms (sst_st s)) i = Some x /\ sym_type i x = Some t /\ s' = s.
Proof.
  unfold named_type. intros H. apply cbind_inv in H as (i & s1 & H1 & H). apply must_inv in H1 as [-> ->].
  apply cbind_inv in H as (x & s1 & H1 & H). apply sym_at_inv in H1 as [E ->]. apply must_inv in H as [T ->]. eauto 8.
Qed.
Lemma gst_inv {A} (f : store -> A) s a s' : gst f s = COk a s' -> a = f (sst_st s) /\ s' = s.
Proof. unfold gst. intros H. injection H as <- <-. auto. Qed.
Lemma gcx_inv {A} (f : actx -> A) s a s' : gcx f s = COk a s' -> a = f (sst_cx s) /\ s' = s.
Proof. unfold gcx. intros H. injection H as <- <-. auto. Qed.
Lemma here_inv n s o s' : resolve_here n s = COk o s' -> o = resolve_sc (sst_st s) (cx_scope (sst_cx s)) n /\ s' = s.
Proof. unfold resolve_here, cbind, gcx, gst. intros H. injection H as <- <-. auto. Qed.
Lemma global_inv n s o s' : resolve_global n s = COk o s' -> o = resolve_sc (sst_st s) (cx_global (sst_cx s)) n /\ s' = s.
Proof. unfold resolve_global, cbind, gcx, gst. intros H. injection H as <- <-. auto. Qed.
Lemma line_inv l s u s' : set_line l s = COk u s' -> s' = reline s l.
Proof. unfold set_line, mcx. intros H. injection H as <- <-. reflexivity. Qed.
