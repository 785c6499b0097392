(** C34: [para] counts exactly the range. *)
From Verif Require Import Base BaseFacts Bson Float Value VM Ast CodeGen Compile Sem Spec_Value SemWf SemProg SemFacts Spec_Sem Prop_Sem Spec_Count CountFacts FuelFacts CalmFacts Ex_Prog.

Lemma update_other l n v l' k : update l n v = Some l' -> k <> n -> look l' k = look l k.
Proof.
  intros U K. assert (KN : text_eqb n k = false) by (destruct (text_eqb n k) eqn:E1; [apply text_eqb_eq in E1; congruence|reflexivity]).
  revert l' U. induction l as [|sc r IH]; cbn; intros l' U; [discriminate|]. destruct (assoc n sc) eqn:A.
  - injection U as <-. cbn. now rewrite (set_other k n v sc KN).
  - destruct (update r n v) as [r'|]; [|discriminate]. injection U as <-. cbn. now rewrite (IH r' eq_refl).
Qed.
(** The rounds of a loop whose body leaves the counter alone, with a bound and a
    step that stay the same, are those of the range. *)
Lemma rounds_fixed E S fuel m d i stop step body b k : (0 < k)%Z -> leaves i body = true ->
  let f := ev E S (exec E S fuel) m d in
  forall c zs c', rounds S f m i stop step body c zs c' -> forall a, look (k_l c) i = Some (VInt a) -> fixed i body c stop b ->
  match step with Some e => fixed i body c e k | None => k = 1%Z end -> zs = range a b k.
Proof.
  intros K L f c zs c' R.
  assert (FX : forall c x z o c1, fixed i body c x z -> f x c = Done (OVal o) c1 -> o = VInt z /\ c1 = c).
  { intros c2 x z o c1 F H. destruct x; try contradiction; destruct pr; try contradiction; cbn in F, H; unfold f in H; cbn in H.
    - rewrite F in H. injection H as <- <-. auto.
    - destruct F as [F _]. unfold read_var, var_value in H. rewrite F in H. injection H as <- <-. auto. }
  assert (FB : forall c x z c2, fixed i body c x z -> run_block f body c = Done ONorm c2 -> fixed i body c2 x z).
  { intros c1 x z c2 F B. destruct x; try contradiction; destruct pr; try contradiction; cbn in *; auto. destruct F as (F1 & F2 & F3). split; [|auto].
    now rewrite (block_alone _ _ _ _ _ _ _ _ _ _ F3 B). }
  assert (FW : forall c x z v c2, fixed i body c x z -> write_var c m i v = Done ONorm c2 -> fixed i body c2 x z).
  { intros c1 x z v c2 F B. destruct x; try contradiction; destruct pr; try contradiction; cbn in *; auto. destruct F as (F1 & F2 & F3). split; [|auto].
    unfold write_var in B. destruct (update (k_l c1) i v) as [l|] eqn:U; injection B as <-; cbn; [|exact F1]. now rewrite (update_other _ _ _ _ _ U F2). }
  induction R as [c j s c1 V F LE|c j s c1 c2 z c3 i' c4 zs c' V F LT B I V' RG W R IH]; intros a A FS FK.
  - unfold var_value in V. rewrite A in V. injection V as <-. destruct (FX _ _ _ _ _ FS F) as [X ->]. injection X as ->. symmetry. apply range_nil; lia.
  - unfold var_value in V. rewrite A in V. injection V as <-. destruct (FX _ _ _ _ _ FS F) as [X ->]. injection X as ->. rewrite range_cons by lia. f_equal.
    assert (Z3 : z = k /\ c3 = c2).
    { destruct step as [e|]; [|destruct I as [-> ->]; auto]. destruct (FX _ _ _ _ _ (FB _ _ _ _ FK B) I) as [X ->]. injection X as ->. auto. }
    destruct Z3 as [-> ->].
    assert (A2 : look (k_l c2) i = Some (VInt a)) by (rewrite (block_alone _ _ _ _ _ _ _ _ _ _ L B); exact A).
    unfold var_value in V'. rewrite A2 in V'. injection V' as <-. apply IH.
    + unfold write_var in W. destruct (look_update _ _ (VInt (a + k)) _ A2) as [l' U]. rewrite U in W. injection W as <-. cbn. eapply update_look, U.
    + eapply FW; [eapply FB; eassumption|exact W].
    + destruct step as [e|]; [|exact FK]. eapply FW; [eapply FB; eassumption|exact W].
Qed.
(** A loop that ends went through its rounds one after the other. *)
Lemma loop_rounds E S F m d ln i start stop step body b k : (0 < k)%Z -> leaves i body = true -> calm body = true ->
  let f := ev E S (exec E S F) m d in
  forall fuel c c' a, (fuel <= F)%nat -> exec E S fuel (Test (NPara ln i start stop step body)) m d c = Done ONorm c' -> look (k_l c) i = Some (VInt a) -> fixed i body c stop b ->
  match step with Some e => fixed i body c e k | None => k = 1%Z end -> exists zs c1, rounds S f m i stop step body c zs c1 /\ c' = pop_scope c1.
Proof.
  intros K L CM f fuel. induction fuel as [|n IH]; intros c c' a LE H A FS FK; [discriminate|]. cbn [exec para_round] in H.
  assert (FX : forall rec c x z, fixed i body c x z -> ev E S rec m d x c = Done (OVal (VInt z)) c).
  { intros rec c2 x z F1. destruct x; try contradiction; destruct pr; try contradiction; cbn in F1 |- *.
    - now rewrite F1.
    - destruct F1 as [F1 _]. unfold read_var, var_value. now rewrite F1. }
  assert (FB : forall n c x z c2, fixed i body c x z -> run_block (ev E S (exec E S n) m d) body c = Done ONorm c2 -> fixed i body c2 x z).
  { intros n1 c1 x z c2 F1 B. destruct x; try contradiction; destruct pr; try contradiction; cbn in *; auto. destruct F1 as (F1 & F2 & F3). split; [|auto].
    now rewrite (block_alone _ _ _ _ _ _ _ _ _ _ F3 B). }
  assert (FW : forall c x z v c2, fixed i body c x z -> write_var c m i v = Done ONorm c2 -> fixed i body c2 x z).
  { intros c1 x z v c2 F1 B. destruct x; try contradiction; destruct pr; try contradiction; cbn in *; auto. destruct F1 as (F1 & F2 & F3). split; [|auto].
    unfold write_var in B. destruct (update (k_l c1) i v) as [l|] eqn:U; injection B as <-; cbn; [|exact F1]. now rewrite (update_other _ _ _ _ _ U F2). }
  assert (RV : forall c a, look (k_l c) i = Some (VInt a) -> read_var S c m i = Done (OVal (VInt a)) c) by (intros c2 a2 A2; unfold read_var, var_value; now rewrite A2).
  assert (VV : forall c a, look (k_l c) i = Some (VInt a) -> var_value S c m i = Some (VInt a)) by (intros c2 a2 A2; unfold var_value; now rewrite A2).
  rewrite (RV _ _ A) in H. cbn [bindv bind] in H. rewrite (FX _ _ _ _ FS) in H. cbn [bindv bind lift sem_binop classify] in H.
  destruct (a <? b)%Z eqn:LT.
  - destruct (run_block (ev E S (exec E S n) m d) body c) as [o c2| | |] eqn:B; cbn [bind] in H; try discriminate H.
    pose proof (block_calm E S n m d body c CM) as Q. rewrite B in Q. destruct o; try discriminate H; try contradiction.
    assert (A2 : look (k_l c2) i = Some (VInt a)) by (rewrite (block_alone _ _ _ _ _ _ _ _ _ _ L B); exact A).
    assert (ST : match step with Some e => ev E S (exec E S n) m d e c2 | None => Done (OVal (VInt 1)) c2 end = Done (OVal (VInt k)) c2).
    { destruct step as [e|]; [apply FX; eapply FB; eassumption|now rewrite FK]. }
    rewrite ST in H. cbn [bindv bind] in H. rewrite (RV _ _ A2) in H. cbn [bindv bind sem_binop classify] in H. unfold in_range in H.
    destruct ((- 2 ^ 63 <=? k + a)%Z && (k + a <? 2 ^ 63)%Z)%bool eqn:RG; cbn [lift bindv bind] in H; [|discriminate H].
    destruct (write_var c2 m i (VInt (k + a))) as [o3 c3| | |] eqn:W; cbn [bind] in H; try discriminate H.
    assert (o3 = ONorm) by (unfold write_var in W; destruct (update _ _ _); congruence). subst o3.
    assert (A3 : look (k_l c3) i = Some (VInt (k + a))).
    { unfold write_var in W. destruct (look_update _ _ (VInt (k + a)) _ A2) as [l' U]. rewrite U in W. injection W as <-. cbn. eapply update_look, U. }
    destruct (IH c3 c' (k + a)%Z ltac:(lia) H A3) as (zs & c1 & R & ->).
    + eapply FW; [eapply FB; eassumption|exact W].
    + destruct step as [e|]; [|exact FK]. eapply FW; [eapply FB; eassumption|exact W].
    + exists (a :: zs), c1. split; [|reflexivity]. rewrite Z.add_comm in W. eapply rounds_go with (k := k) (c3 := c2); [exact (VV _ _ A)|apply FX; exact FS|lia| | |apply VV; exact A2|lia|exact W|exact R].
      * eapply block_more with (f := n); [lia|exact B|discriminate].
      * destruct step as [e|]; [apply FX; eapply FB; eassumption|auto].
  - injection H as <-. exists [], c. split; [|reflexivity]. eapply rounds_end; [exact (VV _ _ A)|apply FX; exact FS|lia].
Qed.

(** A counting loop that ends -- from [a], with a bound and a step that are
    literals or local variables the body leaves alone, over a body that leaves
    the counter alone and has no [quebra] or [continua] of its own: it ran its body
    once for each of [a], [a + k], [a + 2k], ... below [b], in this order, the
    machine does the same, and the counter is gone afterwards.  For loops left
    by [retorna] or an error see C34_stops_partial.  Missing: bounds that are
    other expressions (C34_rounds_partial). *)
Theorem C34_counts_partial : forall E builtins main imports P A lp g ln i start stop step body a a' fuel operands c s x b k c0 c',
  ready builtins main imports P -> place_ok A -> placed builtins main imports A lp g [NPara ln i start stop step body] a a' ->
  holds P (senv_of main imports) A g (g_ip a) operands c s ->
  (0 < k)%Z -> leaves i body = true -> calm body = true ->
  means E main imports A fuel start c = Done (OVal (VInt x)) c0 ->
  fixed i body (push_scope c0 [(i, VInt x)]) stop b ->
  match step with Some e => fixed i body (push_scope c0 [(i, VInt x)]) e k | None => k = 1%Z end ->
  means E main imports A fuel (NPara ln i start stop step body) c = Done ONorm c' ->
  exists c1, rounds (senv_of main imports) (means E main imports A fuel) (pl_m A) i stop step body (push_scope c0 [(i, VInt x)]) (range x b k) c1 /\ c' = pop_scope c1 /\
  exists n s' j, many E P n s s' /\ (clean body = true -> j = []) /\ holds P (senv_of main imports) A g (g_ip a') (operands ++ j) c' s'.
Proof.
  intros E bs main imports P A lp g ln i start stop step body a a' fuel ops c s x b k c0 c' HR PO PL HO K L CM HS FS FK HP.
  unfold means in HP. cbn [ev] in HP. unfold means in HS. rewrite HS in HP. cbn [bindv bind] in HP.
  assert (A0 : look (k_l (push_scope c0 [(i, VInt x)])) i = Some (VInt x)) by (cbn; now rewrite text_eqb_refl).
  destruct (loop_rounds E (senv_of main imports) fuel _ _ ln i start stop step body b k K L CM fuel _ _ _ (le_n _) HP A0 FS FK) as (zs & c1 & R & ->).
  pose proof (rounds_fixed E (senv_of main imports) fuel _ _ i stop step body b k K L _ _ _ R _ A0 FS FK) as ->.
  exists c1. split; [exact R|]. split; [reflexivity|]. eapply C34_rounds_partial; eassumption.
Qed.
Print Assumptions C34_counts_partial.
(** [para j de 0..3 faz mostra j fim]: what the theorem asks for, and the rounds. *)
Example C34_counts_case : exists c P A a a' s0 n s j, ready emb_path prog_para [emb] P /\ place_ok A /\
  placed emb_path prog_para [emb] A false [] [NPara 8 (txt "j") (num 8 "0") (num 8 "3") None para_body] a a' /\ main_start e0 P [] s0 /\ many e0 P n s0 s /\
  holds P (senv_of prog_para [emb]) A [] (g_ip a) j c s /\ leaves (txt "j") para_body = true /\ calm para_body = true /\
  means e0 prog_para [emb] A 10 (num 8 "0") c = Done (OVal (VInt 0)) c /\
  fixed (txt "j") para_body (push_scope c [(txt "j", VInt 0)]) (num 8 "3") 3 /\
  (exists c', means e0 prog_para [emb] A 10 (NPara 8 (txt "j") (num 8 "0") (num 8 "3") None para_body) c = Done ONorm c') /\ range 0 3 1 = [0; 1; 2]%Z.
Proof.
  destruct (reached_some prog_para [emb] 0) as [c R]; [vm_compute; reflexivity|].
  destruct (reached_at prog_para [emb] 0 _ c eq_refl R eq_refl) as (P & A & a & a' & s0 & n & s & j & H1 & H2 & H3 & H4 & H5 & H6 & H7 & H8).
  exists c, P, A, a, a', s0, n, s, j. repeat (split; [assumption|]). clear - H2 H3. unfold means. rewrite H2, H3. destruct c as [[h o i] g l].
  split; [vm_compute; reflexivity|]. split; [vm_compute; reflexivity|]. split; [reflexivity|]. split; [vm_compute; reflexivity|]. split; [eexists; reflexivity|vm_compute; reflexivity].
Qed.
(** Assigning to the counter, or to the variable that is the bound, is noticed;
    so is a [quebra] that is not in a loop of its own. *)
Example C34_leaves_values :
  leaves (txt "j") (NBlock (scope_of []) [NAssign 9 (txt "j") j_ (num 9 "7") false]) = false /\
  leaves (txt "n") (NBlock (scope_of []) [NAssign 9 (txt "j") j_ (num 9 "7") false]) = true /\
  leaves (txt "j") (NBlock (scope_of []) [NEnquanto 9 (num 9 "1") (NBlock (scope_of []) [NPara 9 (txt "j") (num 9 "1") (num 9 "2") None para_body])]) = false /\
  calm (NBlock (scope_of []) [NSe 9 (num 9 "1") (NBlock (scope_of []) [NLoopCtl 9 true]) [] None]) = false /\
  calm (NBlock (scope_of []) [NEnquanto 9 (num 9 "1") (NBlock (scope_of []) [NLoopCtl 9 true])]) = true.
Proof. vm_compute. auto 6. Qed.
(** Where a loop that does not end normally stopped. *)
Lemma loop_stops E S F m d ln i start stop step body b k : (0 < k)%Z -> leaves i body = true -> calm body = true ->
  let f := ev E S (exec E S F) m d in
  forall fuel c r a, (fuel <= F)%nat -> exec E S fuel (Test (NPara ln i start stop step body)) m d c = r -> look (k_l c) i = Some (VInt a) -> fixed i body c stop b ->
  match step with Some e => fixed i body c e k | None => k = 1%Z end ->
  match r with Done (ORet _) _ | Fail _ _ => True | _ => False end ->
  exists zs z rest c1, range a b k = zs ++ z :: rest /\ begun S f m i step body c zs c1 /\ look (k_l c1) i = Some (VInt z) /\
  match r with
  | Done o c' => exists c2, run_block f body c1 = Done o c2 /\ c' = pop_scope c2
  | _ => run_block f body c1 = r \/ exists c2, run_block f body c1 = Done ONorm c2 /\ r = Fail EArith (k_w c2) /\ (2 ^ 63 <= z + k \/ z + k < - 2 ^ 63)%Z
  end.
Proof.
  intros K L CM f fuel. induction fuel as [|n IH]; intros c r a LE H A FS FK RS; [subst r; contradiction|]. cbn [exec para_round] in H.
  assert (FX : forall rec c x z, fixed i body c x z -> ev E S rec m d x c = Done (OVal (VInt z)) c).
  { intros rec c2 x z F1. destruct x; try contradiction; destruct pr; try contradiction; cbn in F1 |- *.
    - now rewrite F1.
    - destruct F1 as [F1 _]. unfold read_var, var_value. now rewrite F1. }
  assert (FB : forall n c x z c2, fixed i body c x z -> run_block (ev E S (exec E S n) m d) body c = Done ONorm c2 -> fixed i body c2 x z).
  { intros n1 c1 x z c2 F1 B. destruct x; try contradiction; destruct pr; try contradiction; cbn in *; auto. destruct F1 as (F1 & F2 & F3). split; [|auto].
    now rewrite (block_alone _ _ _ _ _ _ _ _ _ _ F3 B). }
  assert (FW : forall c x z v c2, fixed i body c x z -> write_var c m i v = Done ONorm c2 -> fixed i body c2 x z).
  { intros c1 x z v c2 F1 B. destruct x; try contradiction; destruct pr; try contradiction; cbn in *; auto. destruct F1 as (F1 & F2 & F3). split; [|auto].
    unfold write_var in B. destruct (update (k_l c1) i v) as [l|] eqn:U; injection B as <-; cbn; [|exact F1]. now rewrite (update_other _ _ _ _ _ U F2). }
  assert (RV : forall c a, look (k_l c) i = Some (VInt a) -> read_var S c m i = Done (OVal (VInt a)) c) by (intros c2 a2 A2; unfold read_var, var_value; now rewrite A2).
  assert (VV : forall c a, look (k_l c) i = Some (VInt a) -> var_value S c m i = Some (VInt a)) by (intros c2 a2 A2; unfold var_value; now rewrite A2).
  rewrite (RV _ _ A) in H. cbn [bindv bind] in H. rewrite (FX _ _ _ _ FS) in H. cbn [bindv bind lift sem_binop classify] in H.
  destruct (a <? b)%Z eqn:LT; [|subst r; contradiction]. rewrite range_cons by lia.
  destruct (run_block (ev E S (exec E S n) m d) body c) as [o c2|e w| |] eqn:B; cbn [bind] in H; try (subst r; contradiction).
  2:{ subst r. exists [], a, (range (a + k) b k), c. split; [reflexivity|]. split; [constructor|]. split; [exact A|]. left. eapply block_more with (f := n); [lia|exact B|discriminate]. }
  assert (B' : run_block f body c = Done o c2) by (eapply block_more with (f := n); [lia|exact B|discriminate]).
  pose proof (block_calm E S n m d body c CM) as Q. rewrite B in Q. destruct o as [|v| | |v]; try contradiction.
  - assert (A2 : look (k_l c2) i = Some (VInt a)) by (rewrite (block_alone _ _ _ _ _ _ _ _ _ _ L B); exact A).
    assert (ST : match step with Some e => ev E S (exec E S n) m d e c2 | None => Done (OVal (VInt 1)) c2 end = Done (OVal (VInt k)) c2).
    { destruct step as [e|]; [apply FX; eapply FB; eassumption|now rewrite FK]. }
    rewrite ST in H. cbn [bindv bind] in H. rewrite (RV _ _ A2) in H. cbn [bindv bind sem_binop classify] in H. unfold in_range in H.
    destruct ((- 2 ^ 63 <=? k + a)%Z && (k + a <? 2 ^ 63)%Z)%bool eqn:RG; cbn [lift bindv bind] in H.
    2:{ subst r. exists [], a, (range (a + k) b k), c. split; [reflexivity|]. split; [constructor|]. split; [exact A|]. right. exists c2. split; [exact B'|]. split; [reflexivity|]. lia. }
    destruct (write_var c2 m i (VInt (k + a))) as [o3 c3| | |] eqn:W; cbn [bind] in H; try (subst r; contradiction).
    2:{ unfold write_var in W. destruct (update _ _ _); discriminate. }
    assert (o3 = ONorm) by (unfold write_var in W; destruct (update _ _ _); congruence). subst o3.
    assert (A3 : look (k_l c3) i = Some (VInt (a + k))).
    { unfold write_var in W. destruct (look_update _ _ (VInt (k + a)) _ A2) as [l' U]. rewrite U in W. injection W as <-. cbn. rewrite (update_look _ _ _ _ U). do 2 f_equal. lia. }
    destruct (IH c3 r (a + k)%Z ltac:(lia) H A3) as (zs & z & rest & c1 & RE & BG & A1 & RR).
    + eapply FW; [eapply FB; eassumption|exact W].
    + destruct step as [e|]; [|exact FK]. eapply FW; [eapply FB; eassumption|exact W].
    + exact RS.
    + exists (a :: zs), z, rest, c1. split; [cbn; now rewrite RE|]. split; [|split; [exact A1|exact RR]].
      rewrite Z.add_comm in W. eapply begun_more with (k := k) (c3 := c2); [exact (VV _ _ A)|exact B'| |exact (VV _ _ A2)|exact W|exact BG].
      destruct step as [e|]; [apply FX; eapply FB; eassumption|auto].
  - subst r. contradiction.
  - subst r. exists [], a, (range (a + k) b k), c. split; [reflexivity|]. split; [constructor|]. split; [exact A|]. exists c2. auto.
Qed.

(** A counting loop as above that is left by [retorna], or by an error: it went
    through the first rounds of the range, and the body returned or failed in
    the next one; or the counter could not be increased any more.  (That the
    machine does what the interpreter does then is C05 and C29.) *)
Theorem C34_stops_partial : forall E main imports A ln i start stop step body fuel c x b k c0 r,
  (0 < k)%Z -> leaves i body = true -> calm body = true ->
  means E main imports A fuel start c = Done (OVal (VInt x)) c0 ->
  fixed i body (push_scope c0 [(i, VInt x)]) stop b ->
  match step with Some e => fixed i body (push_scope c0 [(i, VInt x)]) e k | None => k = 1%Z end ->
  means E main imports A fuel (NPara ln i start stop step body) c = r ->
  match r with Done (ORet _) _ | Fail _ _ => True | _ => False end ->
  exists zs z rest c1, range x b k = zs ++ z :: rest /\
  begun (senv_of main imports) (means E main imports A fuel) (pl_m A) i step body (push_scope c0 [(i, VInt x)]) zs c1 /\ look (k_l c1) i = Some (VInt z) /\
  match r with
  | Done o c' => exists c2, run_block (means E main imports A fuel) body c1 = Done o c2 /\ c' = pop_scope c2
  | _ => run_block (means E main imports A fuel) body c1 = r \/
         exists c2, run_block (means E main imports A fuel) body c1 = Done ONorm c2 /\ r = Fail EArith (k_w c2) /\ (2 ^ 63 <= z + k \/ z + k < - 2 ^ 63)%Z
  end.
Proof.
  intros E main imports A ln i start stop step body fuel c x b k c0 r K L CM HS FS FK HP RS. unfold means in HP. cbn [ev] in HP. unfold means in HS. rewrite HS in HP. cbn [bindv bind] in HP.
  assert (A0 : look (k_l (push_scope c0 [(i, VInt x)])) i = Some (VInt x)) by (cbn; now rewrite text_eqb_refl).
  exact (loop_stops E (senv_of main imports) fuel _ _ ln i start stop step body b k K L CM fuel _ _ _ (le_n _) HP A0 FS FK RS).
Qed.
Print Assumptions C34_stops_partial.

(** [para j de 0..5 faz se j == 2 entao retorna j fim fim], and a loop whose
    third round divides by zero. *)
Definition ret_body : node := NBlock (scope_of [j_]) [NSe 9 (NBin 9 BEq false false (var 9 j_) (num 9 "2") false) (NBlock (scope_of []) [NRet 9 (Some (var 9 j_))]) [] None].
Definition div_body : node := NBlock (scope_of [j_]) [NMostra 9 (NBin 9 BFloorDiv false false (num 9 "6") (NBin 9 BSub false false (var 9 j_) (num 9 "2") false) false)].
Definition bare : cfg := mkCfg (mkWorld [] [] []) (fun _ _ => None) [].
Example C34_stops_case : forall A,
  leaves (txt "j") ret_body = true /\ calm ret_body = true /\ leaves (txt "j") div_body = true /\ calm div_body = true /\
  means e0 prog_para [emb] A 20 (num 8 "0") bare = Done (OVal (VInt 0)) bare /\
  (exists c', means e0 prog_para [emb] A 20 (NPara 8 (txt "j") (num 8 "0") (num 8 "5") None ret_body) bare = Done (ORet (VInt 2)) c') /\
  (exists w, means e0 prog_para [emb] A 20 (NPara 8 (txt "j") (num 8 "0") (num 8 "5") None div_body) bare = Fail EDivZero w /\ w_out w = txt "-3" ++ [10%N] ++ txt "-6" ++ [10%N]) /\
  range 0 5 1 = ([0; 1] ++ 2 :: [3; 4])%Z.
Proof.
  intros A. split; [vm_compute; reflexivity|]. split; [vm_compute; reflexivity|]. split; [vm_compute; reflexivity|]. split; [vm_compute; reflexivity|]. split; [reflexivity|].
  split; [eexists; vm_compute; reflexivity|]. split; [|vm_compute; reflexivity]. eexists. split; vm_compute; reflexivity.
Qed.

(** ** C05 *)
(** The reference is well defined: the result of a program does not depend on
    the fuel given to the interpreter, once it is enough. *)
Lemma module_more E S f f' m md c : (f <= f')%nat -> more (run_module E S f m md c) (run_module E S f' m md c).
Proof.
  intros L. unfold run_module. destruct (mo_builtin md); [apply more_refl|]. unfold exec_module. apply more_bind; [|intros; apply more_refl].
  apply more_seq. apply Forall_forall. intros x _. apply grow_all. now apply exec_more.
Qed.
Lemma modules_more E S f f' l : (f <= f')%nat -> forall i c, more (run_modules E S f i l c) (run_modules E S f' i l c).
Proof. intros L. induction l as [|md l IH]; intros i c; cbn; [apply more_refl|]. apply more_bind; [now apply module_more|]. intros o c1. apply IH. Qed.
Theorem C05_reference : forall E main imports stdin fuel fuel' r r',
  exec_program E fuel main imports stdin = r -> exec_program E fuel' main imports stdin = r' -> r <> Fuel -> r' <> Fuel -> r = r'.
Proof.
  assert (G : forall E main imports stdin f f', (f <= f')%nat -> more (exec_program E f main imports stdin) (exec_program E f' main imports stdin)).
  { intros E main imports stdin f f' L. unfold exec_program. apply more_bind; [now apply modules_more|]. intros o c. now apply module_more. }
  intros E main imports stdin f f' r r' H H' N N'. destruct (Nat.le_ge_cases f f') as [L|L].
  - destruct (G E main imports stdin _ _ L) as [K|K]; congruence.
  - destruct (G E main imports stdin _ _ L) as [K|K]; congruence.
Qed.
Print Assumptions C05_reference.
Example C05_reference_case : exists c, exec_program e0 50 prog_para [emb] [] = Done ONorm c /\ w_out (k_w c) = txt "0" ++ [10%N] ++ txt "1" ++ [10%N] ++ txt "2" ++ [10%N] /\ exec_program e0 2 prog_para [emb] [] = Fuel.
Proof. eexists. split; [vm_compute; reflexivity|]. split; vm_compute; reflexivity. Qed.
