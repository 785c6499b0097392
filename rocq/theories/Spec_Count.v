(** Which names a piece of program leaves alone, for the counting loop ([Prop_Count.v]). *)
From Verif Require Import Base Value Ast Sem Spec_Sem.

(** No assignment to [n], no declaration of [n] and no loop over [n] occurs in
    [x] (functions have variables of their own). *)
Fixpoint leaves (n : text) (x : node) : bool :=
  let opt (o : option node) := match o with Some y => leaves n y | None => true end in
  match x with
  | NAssign _ k _ r _ => negb (text_eqb k n) && leaves n r
  | NVarDecl _ k _ i => negb (text_eqb k n) && opt i
  | NPara _ k a b i blk => negb (text_eqb k n) && leaves n a && leaves n b && opt i && leaves n blk
  | NNamed _ _ e | NConv _ e _ | NGet _ e _ | NField _ e _ | NMostra _ e | NUn _ _ e _ => leaves n e
  | NBin _ _ _ _ l r _ => leaves n l && leaves n r
  | NCall _ _ f args _ => leaves n f && forallb (leaves n) args
  | NIndex _ t i => leaves n t && leaves n i
  | NIndexSet _ t i v => leaves n t && leaves n i && leaves n v
  | NFmt _ ps | NList _ ps => forallb (leaves n) ps
  | NSet _ _ t _ v => leaves n t && leaves n v
  | NUnwrap _ o dv => leaves n o && opt dv
  | NSe _ c th els el => leaves n c && leaves n th && forallb (leaves n) els && opt el
  | NSenaoSe _ c b | NEnquanto _ c b => leaves n c && leaves n b
  | NBlock _ ch => forallb (leaves n) ch
  | NRet _ e => opt e
  | _ => true
  end.
(** The bound or the step of a loop: a literal, or a local variable that the body
    leaves alone, with the value [z]. *)
Definition fixed (i : text) (body : node) (c : cfg) (x : node) (z : Z) : Prop :=
  match x with
  | NConst _ k w false => lit_value k w = Some (VInt z)
  | NVar _ n _ false => look (k_l c) n = Some (VInt z) /\ n <> i /\ leaves n body = true
  | _ => False
  end.
(** No [quebra] or [continua] in [x] that would end or repeat a loop around [x]. *)
Fixpoint calm (x : node) : bool :=
  match x with
  | NLoopCtl _ _ => false
  | NSe _ _ th els el => calm th && forallb calm els && match el with Some y => calm y | None => true end
  | NSenaoSe _ _ b => calm b
  | NBlock _ ch => forallb calm ch
  | _ => true
  end.
(** The rounds [zs] of a counting loop were run to their end, from [c]; the next
    test happens at the last configuration. *)
Inductive begun (S : senv) (f : node -> cfg -> res) (m : option N) (i : text) (step : option node) (body : node) : cfg -> list Z -> cfg -> Prop :=
| begun_none c : begun S f m i step body c [] c
| begun_more c z c2 k c3 z' c4 zs c' : var_value S c m i = Some (VInt z) -> run_block f body c = Done ONorm c2 ->
    match step with Some e => f e c2 = Done (OVal (VInt k)) c3 | None => k = 1%Z /\ c3 = c2 end ->
    var_value S c3 m i = Some (VInt z') -> write_var c3 m i (VInt (z' + k)) = Done ONorm c4 ->
    begun S f m i step body c4 zs c' -> begun S f m i step body c (z :: zs) c'.
