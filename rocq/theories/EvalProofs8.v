(** The evaluator: forms of the main result; a program. *)
Require Import ZArith List Bool Lia.
From Verif Require Import Base IntValModel IntValSpec IntValProofs SetModel SetSpec SetPropProofs EvalModel EvalSpec EvalProofs EvalProofs2 EvalProofs3 EvalProofs4 EvalProofs5 EvalProofs6 EvalProofs7.
Import ListNotations.
Open Scope Z_scope.

Lemma par_result : forall P r e o s, wt_prog P -> wt P e -> means P r e o -> store_ok P r s ->
  exists n s', store_kept P s s' /\
  match o with
  | Some v => exists lit, literal lit v /\ forall k, (n <= k)%nat -> eval_par P k e s = (s', Val lit)
  | None => forall k, (n <= k)%nat -> eval_par P k e s = (s', Und)
  end.
Proof.
  intros P r e o s WP W M Hs. destruct (proj1 (main P WP) r e o M W s Hs) as [_ H]. destruct o as [v|]; cbn [par_good] in H.
  - destruct H as (s' & lit & K & L & n & C). exists n, s'. split; [exact K|]. exists lit. split; [exact L|exact C].
  - destruct H as (s' & K & n & C). exists n, s'. split; [exact K|exact C].
Qed.

Lemma typed_result : forall P r e v s, wt_prog P -> wt P e -> means P r e (Some v) -> store_ok P r s ->
  sval_ty v = type_of P e /\ exists n s', store_kept P s s' /\
  match v with
  | SInt z => forall k, (n <= k)%nat -> eval_int P k e s = (s', Val (ofZ z))
  | SBool b => forall k, (n <= k)%nat -> eval_bool P k e s = (s', Val b)
  | SSet l => exists t, nf t /\ enumerates l t /\ forall k, (n <= k)%nat -> eval_set P k e s = (s', Val t)
  end.
Proof.
  intros P r e v s WP W M Hs. destruct (proj1 (main P WP) r e _ M W s Hs) as [(T & _ & s' & K & C) _]. split; [exact T|].
  destruct v as [z|b|l]; cbn [ev_val] in C.
  - destruct C as [n C]. exists n, s'. auto.
  - destruct C as [n C]. exists n, s'. auto.
  - destruct C as (t & N & E & n & C). exists n, s'. split; [exact K|]. exists t. auto.
Qed.

Lemma bool_defined : forall P r e s, wt_prog P -> wt P e -> store_ok P r s -> type_of P e = TBool -> ~ means P r e None.
Proof.
  intros P r e s WP W Hs T M. destruct (proj1 (main P WP) r e None M W s Hs) as [(N & _) _]. contradiction.
Qed.

Lemma start_ok : forall P, store_ok P no_env (start P).
Proof. intros P. split; [intros d v E; discriminate|]. intros d e E. left. split; [exact E|reflexivity]. Qed.

Lemma history_from : forall P es os s, wt_prog P -> Forall (wt P) es -> Forall2 (means P no_env) es os -> store_ok P no_env s ->
  exists n, forall k, (n <= k)%nat -> Forall2 answers (eval_all P k es s) os.
Proof.
  intros P es os s WP W F. revert s. induction F as [|e o es os M F IH]; intros s Hs; [exists 0%nat; constructor|].
  inversion W; subst. destruct (par_result P no_env e o s WP H1 M Hs) as (n & s' & K & H).
  destruct (IH H2 s' (kept_ok P no_env s s' Hs K)) as [n' IH'].
  exists (Nat.max n n'). intros k Hk. cbn [eval_all]. destruct o as [v|].
  - destruct H as (lit & L & C). rewrite C by lia. constructor; [exists lit; auto|]. apply IH'. lia.
  - rewrite H by lia. constructor; [reflexivity|]. apply IH'. lia.
Qed.
Lemma history : forall P es os, wt_prog P -> Forall (wt P) es -> Forall2 (means P no_env) es os ->
  exists n, forall k, (n <= k)%nat -> Forall2 answers (eval_all P k es (start P)) os.
Proof. intros P es os WP W F. apply history_from; try assumption. apply start_ok. Qed.

(** function int: sum(0..9: n) = if n <= 0 then 0 else let { int: m = sum(n-1); constraint m >= 0 } in n + m endif;
    int: t = sum(3); *)
Definition lit (z : Z) : expr := EInt (ofZ z).
Definition w_fun : func := mkFunc [0%nat]
  (EIte [(EBin BLq (EId 0) (lit 0), lit 0)]
     (ELet [LDecl 1 (ECall 0 [EBin BMinus (EId 0) (lit 1)]); LCon (EBin BGq (EId 1) (lit 0))] (EBin BPlus (EId 0) (EId 1)))) TInt None.
Definition w_prog : program := mkProg (fun _ => TInt)
  (fun d => match d with 0%nat => Some (EBin BDotDot (lit 0) (lit 9)) | _ => None end)
  (fun d => match d with 2%nat => Some (ECall 0 [lit 3]) | _ => None end)
  (fun f => match f with 0%nat => Some w_fun | _ => None end).

Lemma w_lit_wt : forall z, wt w_prog (lit z). Proof. intros. constructor. Qed.
Lemma w_call_wt : forall a, wt w_prog a -> type_of w_prog a = TInt -> wt w_prog (ECall 0 [a]).
Proof.
  intros a W T. eapply wt_call with (fn := w_fun); [reflexivity| |].
  - intros b [<-|[]]. exact W.
  - cbn [map]. rewrite T. reflexivity.
Qed.
Lemma w_body_wt : wt w_prog (f_body w_fun).
Proof.
  cbn [f_body w_fun]. apply wt_ite.
  - apply wt_let.
    + apply wt_bin; [constructor|constructor|reflexivity].
    + intros d e [E|[E|[]]]; [|discriminate]. injection E as <- <-. split; [|reflexivity].
      apply w_call_wt; [|reflexivity]. apply wt_bin; [constructor|constructor|reflexivity].
    + intros e [E|[E|[]]]; [discriminate|]. injection E as <-. split; [|reflexivity]. apply wt_bin; [constructor|constructor|reflexivity].
  - intros c t [E|[]]. injection E as <- <-. split; [apply wt_bin; [constructor|constructor|reflexivity]|].
    split; [reflexivity|]. split; [constructor|reflexivity].
Qed.
Lemma w_prog_wt : wt_prog w_prog.
Proof.
  split; [|split].
  - intros d e E. destruct d as [|[|[|d]]]; try discriminate. cbn in E. injection E as <-.
    split; [|split; reflexivity]. apply w_call_wt; [constructor|reflexivity].
  - intros d de E. destruct d as [|d]; [|discriminate]. cbn in E. injection E as <-.
    split; [|reflexivity]. apply wt_bin; [constructor|constructor|reflexivity].
  - intros f fn E. destruct f as [|f]; [|discriminate]. cbn in E. injection E as <-.
    split; [repeat constructor; intros []|]. split; [intros d [<-|[]]; reflexivity|]. split; [exact w_body_wt|].
    split; [reflexivity|]. intros de Hd. discriminate.
Qed.

Fixpoint tri (n : nat) : Z := match n with O => 0 | S m => Z.of_nat n + tri m end.
Lemma tri_bound : forall n, (n <= 9)%nat -> 0 <= tri n <= 100.
Proof. intros n H. do 10 (destruct n as [|n]; [cbn; lia|]). lia. Qed.
Lemma w_lit : forall r z, safe z -> means w_prog r (lit z) (Some (SInt z)).
Proof. intros r z H. constructor; [apply is_int_ofZ; apply safe_fits; exact H|exact H]. Qed.
Ltac safe_now := unfold safe, LLONG_MIN, LLONG_MAX; lia.
Definition upto9 : list Z := [0;1;2;3;4;5;6;7;8;9].
Lemma w_dom : forall r, means w_prog r (EBin BDotDot (lit 0) (lit 9)) (Some (SSet upto9)).
Proof.
  intros r. change (Some (SSet upto9)) with (close (type_of w_prog (EBin BDotDot (lit 0) (lit 9))) (Some (SSet upto9))).
  eapply m_bin; [reflexivity|apply w_lit; safe_now|apply w_lit; safe_now| |].
  - exists upto9. split; [reflexivity|]. split; [repeat constructor; lia|]. intros z. unfold upto9. cbn [In]. lia.
  - intros y E. injection E as <-. split; [repeat constructor; lia|]. repeat constructor; safe_now.
Qed.
Lemma w_bin : forall r o a b v w x, lazy_op o = false -> type_of w_prog (EBin o a b) <> TBool \/ x <> None -> means w_prog r a (Some v) -> means w_prog r b (Some w) ->
  op_means o v w x -> (forall y, x = Some y -> safe_val y) -> means w_prog r (EBin o a b) x.
Proof.
  intros r o a b v w x L N A B O S. replace x with (close (type_of w_prog (EBin o a b)) x); [eapply m_bin; eassumption|].
  destruct x; [destruct (type_of w_prog (EBin o a b)); reflexivity|]. destruct (type_of w_prog (EBin o a b)); try reflexivity. destruct N; congruence.
Qed.
Lemma w_cmp : forall r o a b x y c, (o = BLq \/ o = BGq \/ o = BEq) -> means w_prog r a (Some (SInt x)) -> means w_prog r b (Some (SInt y)) ->
  compares o (x < y) (x > y) (x = y) c -> means w_prog r (EBin o a b) (Some (SBool c)).
Proof.
  intros r o a b x y c Ho A B C. eapply w_bin; try eassumption.
  - destruct Ho as [->|[->| ->]]; reflexivity.
  - right. discriminate.
  - destruct Ho as [->|[->| ->]]; exists c; (split; [reflexivity|exact C]).
  - intros z E. injection E as <-. exact Logic.I.
Qed.
Lemma w_arith : forall r o a b x y z, (o = BPlus \/ o = BMinus) -> means w_prog r a (Some (SInt x)) -> means w_prog r b (Some (SInt y)) ->
  z = (match o with BPlus => x + y | _ => x - y end) -> safe z -> means w_prog r (EBin o a b) (Some (SInt z)).
Proof.
  intros r o a b x y z Ho A B E S. eapply w_bin; try eassumption.
  - destruct Ho as [->| ->]; reflexivity.
  - right. discriminate.
  - subst z. destruct Ho as [->| ->]; reflexivity.
  - intros v E'. injection E' as <-. exact S.
Qed.

Lemma w_sum : forall n, (n <= 9)%nat -> forall r a, means w_prog r a (Some (SInt (Z.of_nat n))) ->
  means w_prog r (ECall 0 [a]) (Some (SInt (tri n))).
Proof.
  induction n as [|n IH]; intros Hn r a Ha.
  - eapply m_call with (fn := w_fun) (vs := [SInt 0]); [reflexivity|apply ma_cons; [exact Ha|apply ma_nil]| | |apply md_none].
    + apply mp_cons; [|apply mp_nil]. eapply md_some; [discriminate|apply w_dom|]. split; [intros _; cbn; auto|reflexivity].
    + apply m_ite, mi_true; [|apply (w_lit _ 0); safe_now]. eapply w_cmp; [auto|apply m_local; reflexivity|apply w_lit; safe_now|].
      split; [intros _; lia|reflexivity].
  - pose proof (tri_bound n ltac:(lia)) as Tn. pose proof (tri_bound (S n) Hn) as Ts.
    set (z := Z.of_nat (S n)) in *. assert (Hz : 1 <= z <= 9) by (unfold z; lia). assert (Ez : z = Z.of_nat n + 1) by (unfold z; lia).
    eapply m_call with (fn := w_fun) (vs := [SInt z]); [reflexivity|apply ma_cons; [exact Ha|apply ma_nil]| | |apply md_none].
    + apply mp_cons; [|apply mp_nil]. eapply md_some; [discriminate|apply w_dom|]. split; [|reflexivity].
      intros _. unfold within, upto9. cbn [In]. lia.
    + apply m_ite, mi_false.
      * eapply w_cmp; [auto|apply m_local; reflexivity|apply w_lit; safe_now|]. split; [discriminate|lia].
      * apply mi_else. eapply m_let.
        -- intros d [<-|[]]. split; reflexivity.
        -- repeat constructor. intros [].
        -- eapply mt_decl with (v := SInt (tri n)); [apply IH; [lia|]|apply md_none|].
           ++ eapply w_arith; [auto|apply m_local; reflexivity|apply w_lit; safe_now| |safe_now]. unfold z. lia.
           ++ apply mt_con; [|apply mt_nil]. eapply w_cmp; [auto|apply m_local; reflexivity|apply w_lit; safe_now|].
              split; [intros _; lia|reflexivity].
        -- eapply w_arith; [auto|apply m_local; reflexivity|apply m_local; reflexivity| |safe_now]. reflexivity.
Qed.

(** t + t = 12 /\ not (1 div 0 = 1) *)
Definition w_expr : expr := EBin BAnd (EBin BEq (EBin BPlus (EId 2) (EId 2)) (lit 12)) (EUn UNot (EBin BEq (EBin BDiv (lit 1) (lit 0)) (lit 1))).
Lemma w_t : forall r, r 2%nat = None -> means w_prog r (EId 2) (Some (SInt 6)).
Proof.
  intros r H. eapply m_top; [exact H|reflexivity|]. change 6 with (tri 3). apply w_sum; [lia|]. apply w_lit. safe_now.
Qed.
Lemma w_div : means w_prog no_env (EBin BDiv (lit 1) (lit 0)) None.
Proof.
  eapply w_bin; [reflexivity|left; discriminate|apply w_lit; safe_now|apply w_lit; safe_now|left; auto|discriminate].
Qed.
Lemma w_expr_means : means w_prog no_env w_expr (Some (SBool true)).
Proof.
  apply m_and.
  - eapply w_cmp; [auto|eapply w_arith; [auto|apply w_t; reflexivity|apply w_t; reflexivity|reflexivity|safe_now]|apply w_lit; safe_now|].
    split; reflexivity.
  - eapply m_un with (v := SBool false); [|reflexivity|exact Logic.I]. apply m_bin_undef_l; [reflexivity|exact w_div].
Qed.
(** sum(10) is undefined *)
Lemma w_out : means w_prog no_env (ECall 0 [lit 10]) None.
Proof.
  change (@None sval) with (close (f_ty w_fun) None).
  eapply m_call_bad_arg with (vs := [SInt 10]) (b := Some false); [reflexivity|apply ma_cons; [apply w_lit; safe_now|apply ma_nil]| |discriminate].
  apply mp_out; [reflexivity| |discriminate]. eapply md_some; [discriminate|apply w_dom|]. split; [discriminate|].
  unfold within, upto9. cbn [In]. lia.
Qed.
Lemma w_wt : Forall (wt w_prog) [w_expr; ECall 0 [lit 10]; EId 2].
Proof.
  repeat constructor; try (apply w_call_wt; [constructor|reflexivity]).
Qed.
Lemma w_means : Forall2 (means w_prog no_env) [w_expr; ECall 0 [lit 10]; EId 2] [Some (SBool true); None; Some (SInt 6)].
Proof.
  apply Forall2_cons; [exact w_expr_means|]. apply Forall2_cons; [exact w_out|]. apply Forall2_cons; [apply w_t; reflexivity|].
  apply Forall2_nil.
Qed.
