(** Proofs about the printing of statistics. *)
Require Import ZArith List Bool Lia.
From Verif Require Import StrModel JsonModel JsonSpec StatModel StatSpec.
Import ListNotations.
Open Scope Z_scope.

Lemma escape_cons c s : escapeStringLit (c :: s) = (if c =? 10 then [92; 110] else if c =? 9 then [92; 116] else if c =? 34 then [92; 34] else if c =? 92 then [92; 92] else [c]) ++ escapeStringLit s.
Proof. reflexivity. Qed.
Lemma escape_chars : forall s, clean s -> chars (escapeStringLit s) s.
Proof.
  induction s as [|c s IH]; intros C; [constructor|]. inversion C as [|? ? Hc Cs]; subst. rewrite escape_cons. change (c :: s) with ([c] ++ s).
  destruct (Z.eqb_spec c 10); [subst; apply CH_cons; [constructor|intros ? [=]|auto]|].
  destruct (Z.eqb_spec c 9); [subst; apply CH_cons; [constructor|intros ? [=]|auto]|].
  destruct (Z.eqb_spec c 34); [subst; apply CH_cons; [constructor|intros ? [=]|auto]|].
  destruct (Z.eqb_spec c 92); [subst; apply CH_cons; [constructor|intros ? [=]|auto]|].
  apply CH_cons; [constructor; assumption|intros d [= <-]; lia|auto].
Qed.
Lemma escape_line : forall s, ~ In 10 (escapeStringLit s).
Proof.
  induction s as [|c s IH]; [intros []|]. rewrite escape_cons, in_app_iff. intros [H|H]; [|auto].
  destruct (Z.eqb_spec c 10); [cbn in H; lia|]. destruct (c =? 9); [cbn in H; lia|]. destruct (c =? 34); [cbn in H; lia|].
  destruct (c =? 92); cbn in H; lia.
Qed.
Lemma escape_denotes : forall s, denotes_all (escapeStringLit s) s.
Proof.
  induction s as [|c s IH]; [constructor|]. rewrite escape_cons. change (c :: s) with ([c] ++ s). constructor; [|exact IH].
  destruct (Z.eqb_spec c 10); [subst; constructor|]. destruct (Z.eqb_spec c 9); [subst; constructor|].
  destruct (Z.eqb_spec c 34); [subst; constructor|]. destruct (Z.eqb_spec c 92); [subst; constructor|]. constructor; assumption.
Qed.

Lemma digits_line l : Forall is_digit l -> ~ In 10 l.
Proof. intros F H. rewrite Forall_forall in F. specialize (F _ H). unfold is_digit in F. lia. Qed.
Lemma number_line t : json_number t -> ~ In 10 t.
Proof.
  intros (sg & i & f & x & -> & S & I & F & X). rewrite !in_app_iff. intros [H|[H|[H|H]]].
  - destruct S as [-> | ->]; cbn in H; lia.
  - inversion I as [|c l Hc Hl]; subst; cbn in H; [lia|]. destruct H as [H|H]; [lia|]. exact (digits_line _ Hl H).
  - inversion F as [|c l Hc Hl]; subst; cbn in H; [tauto|]. unfold is_digit in Hc. destruct H as [H|[H|H]]; [lia|lia|]. exact (digits_line _ Hl H).
  - inversion X as [|e s c l He Hs Hc Hl]; subst; cbn in H; [tauto|]. unfold is_digit in Hc. rewrite in_app_iff in H. cbn in H.
    destruct H as [H|[H|[H|H]]]; [lia|destruct Hs as [->|[->| ->]]; cbn in H; lia|lia|]. exact (digits_line _ Hl H).
Qed.

Definition items := fix go (l : list expr) : str := match l with [] => [] | [x] => print_expr x | x :: r => print_expr x ++ [44] ++ go r end.
Lemma print_arr l : print_expr (EArr l) = 91 :: items l ++ [93].
Proof. reflexivity. Qed.
Lemma expr_json : forall e v, expresses e v ->
  json (print_expr e) v /\ ~ In 10 (print_expr e) /\ (forall l vs, e = EArr l -> v = VList vs -> l <> [] -> elements (items l) vs).
Proof.
  intros e v X. induction X as [t N|b|s C| |x v l vs X1 IH1 X2 IH2].
  - cbn. repeat split; [constructor; exact N|apply number_line; exact N|discriminate].
  - destruct b; cbn; (repeat split; [constructor|lia|discriminate]).
  - cbn. repeat split; [|  |discriminate].
    + apply J_str, escape_chars, C.
    + rewrite in_app_iff. cbn. intros [H|[H|[H|[]]]]; try lia. exact (escape_line _ H).
  - cbn. repeat split; [apply (J_empty []); constructor|lia|congruence].
  - destruct IH1 as (J & NL & _). destruct IH2 as (J2 & NL2 & E2).
    assert (E : elements (items (x :: l)) (v :: vs)).
    { destruct l as [|y l].
      - assert (vs = []) by (inversion X2; reflexivity). subst. cbn. constructor. exact J.
      - cbn [items]. fold items. apply E_more; [exact J|]. apply (E2 (y :: l) vs eq_refl eq_refl). discriminate. }
    assert (L : ~ In 10 (items (x :: l))).
    { destruct l as [|y l]; [exact NL|]. change (items (x :: y :: l)) with (print_expr x ++ [44] ++ items (y :: l)). rewrite !in_app_iff.
      rewrite print_arr in NL2. cbn in NL2. rewrite in_app_iff in NL2. intros [H|[H|H]]; [tauto|cbn in H; lia|]. tauto. }
    rewrite print_arr. split; [apply J_arr, E|]. split.
    + cbn. rewrite in_app_iff. cbn. intros [H|[H|[H|[]]]]; try lia. exact (L H).
    + intros ? ? [= <-] [= <-] _. exact E.
Qed.

(** what follows a member, and what follows the opening bracket *)
Definition after (r : list (str * value)) (t : str) : Prop := ~ In 10 t /\ ((r = [] /\ t = []) \/ exists t', t = 44 :: t' /\ members t' r).
Definition inside (r : list (str * value)) (t : str) : Prop := ~ In 10 t /\ ((r = [] /\ t = []) \/ members t r).
Definition out_of (l : list stat) (s : stream) : str := s_out (fold_left add l s).

Lemma member_first b n x v r t : Forall blank b -> ~ In 10 b -> clean n -> json x v -> ~ In 10 x -> after r t ->
  let u := (b ++ 34 :: escapeStringLit n ++ 34 :: 58 :: 32 :: x) ++ t in ~ In 10 u /\ members u ((n, v) :: r).
Proof.
  intros B NB C J NX (NT & A) u. split.
  - unfold u. intros H. pose proof (escape_line n) as NE. repeat (rewrite in_app_iff in H || cbn [In] in H). repeat (destruct H as [H|H]; try lia; try tauto).
  - assert (J' : json (32 :: x) v).
    { replace (32 :: x) with ([32] ++ x ++ []) by (rewrite app_nil_r; reflexivity). apply J_blank; [repeat constructor|constructor|exact J]. }
    unfold u. destruct A as [(-> & ->)|(t' & -> & M)].
    + rewrite app_nil_r. apply (M_one b _ n [] (32 :: x) v B (escape_chars _ C) (Forall_nil _) J').
    + apply (M_more b _ n [] (32 :: x) v t' r B (escape_chars _ C) (Forall_nil _) J' M).
Qed.

Lemma clean_string s : clean s -> json ([34] ++ escapeStringLit s ++ [34]) (VStr s) /\ ~ In 10 ([34] ++ escapeStringLit s ++ [34]).
Proof.
  intros C. split; [apply J_str, escape_chars, C|]. rewrite !in_app_iff. cbn. intros [H|[H|H]]; try lia. exact (escape_line _ H).
Qed.

(** a call either leaves the text as it is or adds a member *)
Lemma add_item : forall l r, reports l r -> match l with [] => r = [] | c :: l' =>
  (reports l' r /\ forall o f w, exists w', add (mkS true o f w) c = mkS true o f w') \/
  (exists n x v r', r = (n, v) :: r' /\ reports l' r' /\ clean n /\ json x v /\ ~ In 10 x /\
    forall o f w, add (mkS true o f w) c = mkS true (o ++ (if f then [] else [44; 32]) ++ [34] ++ escapeStringLit n ++ [34; 58; 32] ++ x) false w) end.
Proof.
  intros l r R. destruct R as [|n t l r C N R|n t l r C N R|n d l r D R|n s l r C S R|n e v l r C X R|n s l r R]; [reflexivity|right|right|left|right|right|left].
  - exists n, t, (VNum t), r. repeat split; auto; [constructor; exact N|apply number_line, N].
  - exists n, t, (VNum t), r. repeat split; auto; [constructor; exact N|apply number_line, N].
  - split; [exact R|]. intros o f w. exists w. destruct D as [->|[->| ->]]; reflexivity.
  - destruct (clean_string s S) as (J & L). exists n, ([34] ++ escapeStringLit s ++ [34]), (VStr s), r. repeat split; auto.
  - destruct (expr_json e v X) as (J & L & _). exists n, (print_expr e), v, r. repeat split; auto. intros o f w. destruct X; reflexivity.
  - split; [exact R|]. intros o f w. exists (S w). reflexivity.
Qed.

Lemma after_ok : forall l r, reports l r -> forall o w, exists t w', fold_left add l (mkS true o false w) = mkS true (o ++ t) false w' /\ after r t.
Proof.
  induction l as [|c l IH]; intros r R o w; pose proof (add_item _ _ R) as A; cbv beta iota in A.
  - subst. exists [], w. cbn. rewrite app_nil_r. split; [reflexivity|]. split; [intros []|left; auto].
  - cbn [fold_left]. destruct A as [(R' & A)|(n & x & v & r' & -> & R' & C & J & NX & A)].
    + destruct (A o false w) as (w' & ->). apply IH, R'.
    + rewrite A. cbv iota. destruct (IH r' R' (o ++ [44; 32] ++ [34] ++ escapeStringLit n ++ [34; 58; 32] ++ x) w) as (t & w' & -> & AT).
      destruct (member_first [32] n x v r' t) as (NU & M); auto; [repeat constructor|cbn; lia|].
      exists (44 :: ([32] ++ 34 :: escapeStringLit n ++ 34 :: 58 :: 32 :: x) ++ t), w'. split.
      * f_equal. rewrite <- !app_assoc. cbn [app]. rewrite <- ?app_assoc. cbn [app]. rewrite <- ?app_assoc. reflexivity.
      * split; [intros [H|H]; [lia|exact (NU H)]|]. right. eexists. split; [reflexivity|exact M].
Qed.
Lemma inside_ok : forall l r, reports l r -> forall o w, exists t f w', fold_left add l (mkS true o true w) = mkS true (o ++ t) f w' /\ inside r t.
Proof.
  induction l as [|c l IH]; intros r R o w; pose proof (add_item _ _ R) as A; cbv beta iota in A.
  - subst. exists [], true, w. cbn. rewrite app_nil_r. split; [reflexivity|]. split; [intros []|left; auto].
  - cbn [fold_left]. destruct A as [(R' & A)|(n & x & v & r' & -> & R' & C & J & NX & A)].
    + destruct (A o true w) as (w' & ->). apply IH, R'.
    + rewrite A. cbv iota. destruct (after_ok l r' R' (o ++ [] ++ [34] ++ escapeStringLit n ++ [34; 58; 32] ++ x) w) as (t & w' & -> & AT).
      destruct (member_first [] n x v r' t) as (NU & M); auto.
      exists (([] ++ 34 :: escapeStringLit n ++ 34 :: 58 :: 32 :: x) ++ t), false, w'. split.
      * f_equal. rewrite <- !app_assoc. cbn [app]. rewrite <- ?app_assoc. cbn [app]. rewrite <- ?app_assoc. reflexivity.
      * split; [exact NU|]. right. exact M.
Qed.

Lemma plain_chars : forall s, Forall (fun c => 32 <= c /\ c <> 34 /\ c <> 92) s -> chars s s.
Proof.
  induction s as [|c s IH]; intros F; [constructor|]. inversion F as [|? ? H F']; subst. apply (CH_cons [c] [c]); [constructor; lia|intros d [= <-]; lia|auto].
Qed.
(** the object that starts with the type of the message *)
Lemma message_ok (ty key t : str) v :
  Forall (fun c => 32 <= c /\ c <> 34 /\ c <> 92) ty -> Forall (fun c => 32 <= c /\ c <> 34 /\ c <> 92) key -> json t v -> ~ In 10 t ->
  json_line ([123] ++ quote b_type ++ [58; 32] ++ quote ty ++ [44; 32] ++ quote key ++ [58; 32] ++ t ++ [125; 10]) (VObj [(b_type, VStr ty); (key, v)]).
Proof.
  intros T K J NT.
  assert (B : Forall blank [32]) by (repeat constructor).
  assert (NL : forall s, Forall (fun c => 32 <= c /\ c <> 34 /\ c <> 92) s -> ~ In 10 s) by (intros s F H; rewrite Forall_forall in F; specialize (F _ H); lia).
  assert (BT : Forall (fun c => 32 <= c /\ c <> 34 /\ c <> 92) b_type) by (repeat constructor; lia).
  assert (P : forall x w, json x w -> json (32 :: x) w).
  { intros x w H. replace (32 :: x) with ([32] ++ x ++ []) by (rewrite app_nil_r; reflexivity). apply J_blank; [exact B|constructor|exact H]. }
  exists (123 :: (([] ++ 34 :: b_type ++ 34 :: [] ++ 58 :: 32 :: 34 :: ty ++ [34]) ++ 44 :: ([32] ++ 34 :: key ++ 34 :: [] ++ 58 :: 32 :: t)) ++ [125]). split.
  { unfold quote. repeat (rewrite <- ?app_assoc; cbn [app]). reflexivity. }
  split.
  - intros H. repeat (rewrite ?in_app_iff in H; cbn [In app] in H). specialize (NL _ T) as N1. specialize (NL _ K) as N2. specialize (NL _ BT) as N3.
    repeat (destruct H as [H|H]; try lia; try tauto).
  - apply J_obj. apply M_more; [constructor|apply plain_chars; exact BT|constructor| |].
    + apply P, J_str, plain_chars, T.
    + apply M_one; [exact B|apply plain_chars; exact K|constructor|apply P, J].
Qed.

Lemma stats_ok : forall l r, reports l r -> json_line (print_stats true l) (VObj [(b_type, VStr b_statistics); (b_statistics, VObj r)]).
Proof.
  intros l r R. unfold print_stats, close, start. destruct (inside_ok l r R b_open 0%nat) as (t & f & w & -> & NT & I). cbn [s_json s_out].
  replace ((b_open ++ t) ++ [125; 125; 10]) with
    ([123] ++ quote b_type ++ [58; 32] ++ quote b_statistics ++ [44; 32] ++ quote b_statistics ++ [58; 32] ++ (123 :: t ++ [125]) ++ [125; 10])
    by (unfold b_open; repeat (rewrite <- ?app_assoc; cbn [app]); reflexivity).
  apply message_ok; [repeat constructor; lia..| |].
  - destruct I as [(-> & ->)|M]; [apply (J_none []); constructor|apply J_obj, M].
  - cbn. rewrite in_app_iff. cbn. intros [H|[H|[H|[]]]]; try lia. exact (NT H).
Qed.

Lemma comment_ok : forall s, clean s -> json_line (comment_message s) (VObj [(b_type, VStr b_comment); (b_comment, VStr (s ++ [10]))]).
Proof.
  intros s C. unfold comment_message.
  assert (C' : clean (s ++ [10])) by (apply Forall_app; split; [exact C|repeat constructor; lia]).
  assert (E : escapeStringLit (s ++ [10]) = escapeStringLit s ++ [92; 110]) by (unfold escapeStringLit; rewrite flat_map_app; reflexivity).
  destruct (clean_string _ C') as (J & L). rewrite E in J, L.
  replace (_ ++ _) with ([123] ++ quote b_type ++ [58; 32] ++ quote b_comment ++ [44; 32] ++ quote b_comment ++ [58; 32] ++ ([34] ++ (escapeStringLit s ++ [92; 110]) ++ [34]) ++ [125; 10])
    by (repeat (rewrite <- ?app_assoc; cbn [app]); reflexivity).
  apply message_ok; [repeat constructor; lia..|exact J|exact L].
Qed.

Lemma core_after : forall l, Forall clean l -> ~ In 10 (core_items false l) /\ (l = [] \/ exists t, core_items false l = 44 :: t /\ elements t (map VStr l)).
Proof.
  induction l as [|x l IH]; intros F; [split; [intros []|left; reflexivity]|]. inversion F as [|? ? C F']; subst.
  destruct (IH F') as (N & A). destruct (clean_string x C) as (J & L). cbn [core_items]. split.
  - repeat (rewrite in_app_iff || cbn [In]). repeat rewrite in_app_iff in L. cbn [In] in L. intros H. repeat (destruct H as [H|H]; try lia; try tauto).
  - right. exists ((32 :: ([34] ++ escapeStringLit x ++ [34])) ++ core_items false l). split; [repeat (rewrite <- ?app_assoc; cbn [app]); reflexivity|].
    assert (P : json (32 :: ([34] ++ escapeStringLit x ++ [34])) (VStr x)).
    { match goal with |- json (32 :: ?y) _ => replace (32 :: y) with ([32] ++ y ++ []) by (rewrite app_nil_r; reflexivity) end.
      apply J_blank; [repeat constructor|constructor|exact J]. }
    destruct A as [->|(t & -> & M)]; [cbn [core_items map]; rewrite app_nil_r; constructor; exact P|]. apply (E_more _ _ t _ P M).
Qed.
Lemma core_ok : forall l, Forall clean l -> json_line (core_message l) (VObj [(b_type, VStr b_core); (b_core, VList (map VStr l))]).
Proof.
  intros l F. unfold core_message.
  replace (_ ++ _) with ([123] ++ quote b_type ++ [58; 32] ++ quote b_core ++ [44; 32] ++ quote b_core ++ [58; 32] ++ (91 :: core_items true l ++ [93]) ++ [125; 10])
    by (repeat (rewrite <- ?app_assoc; cbn [app]); reflexivity).
  assert (N : ~ In 10 (core_items true l) /\ (l = [] \/ elements (core_items true l) (map VStr l))).
  { destruct l as [|x l]; [split; [intros []|left; reflexivity]|]. inversion F as [|? ? C F']; subst. destruct (core_after l F') as (N & A).
    destruct (clean_string x C) as (J & L). cbn [core_items map]. split.
    - repeat (rewrite in_app_iff || cbn [In]). repeat rewrite in_app_iff in L. cbn [In] in L. intros H. repeat (destruct H as [H|H]; try lia; try tauto).
    - right. replace ([] ++ [34] ++ escapeStringLit x ++ [34] ++ core_items false l) with (([34] ++ escapeStringLit x ++ [34]) ++ core_items false l)
        by (repeat (rewrite <- ?app_assoc; cbn [app]); reflexivity).
      destruct A as [->|(t & -> & M)]; [cbn [core_items map]; rewrite app_nil_r; constructor; exact J|]. apply (E_more _ _ t _ J M). }
  destruct N as (N & E). apply message_ok; [repeat constructor; lia..| |].
  - destruct E as [->|E]; [apply (J_empty []); constructor|apply J_arr, E].
  - cbn. rewrite in_app_iff. cbn. intros [H|[H|[H|[]]]]; try lia. exact (N H).
Qed.

(** ** The text format *)
Definition line_of (p : str * str) : str := b_stat ++ fst p ++ [61] ++ snd p.
Lemma text_ok : forall l, (forall n e, ~ In (AddExpr n e) l) -> exists r, listed l r /\ print_stats false l = flat_map (fun p => line_of p ++ [10]) r ++ b_end.
Proof.
  intros l NE. unfold print_stats, close, start.
  enough (H : forall o w, exists r, listed l r /\ exists w', fold_left add l (mkS false o true w) = mkS false (o ++ flat_map (fun p => line_of p ++ [10]) r) true w').
  { destruct (H [] 0%nat) as (r & L & w & ->). exists r. split; [exact L|reflexivity]. }
  induction l as [|c l IH]; intros o w; [exists []; split; [constructor|]; exists w; cbn; rewrite app_nil_r; reflexivity|].
  assert (NE' : forall n e, ~ In (AddExpr n e) l) by (intros n e H; apply (NE n e); right; exact H). specialize (IH NE').
  assert (G : forall n x, (forall r, listed l r -> listed (c :: l) ((n, x) :: r)) -> add (mkS false o true w) c = add_internal (mkS false o true w) n x ->
    exists r, listed (c :: l) r /\ exists w', fold_left add (c :: l) (mkS false o true w) = mkS false (o ++ flat_map (fun p => line_of p ++ [10]) r) true w').
  { intros n x Hl E. cbn [fold_left]. rewrite E. unfold add_internal. cbn [s_json s_out s_first s_warn].
    destruct (IH (o ++ b_stat ++ n ++ [61] ++ x ++ [10]) w) as (r & L & w' & ->). exists ((n, x) :: r). split; [auto|]. exists w'. f_equal.
    cbn [flat_map]. unfold line_of at 2. cbn [fst snd]. rewrite <- !app_assoc. reflexivity. }
  destruct c as [n t|n d|n s|n e].
  - apply (G n t); [intros r; constructor; assumption|reflexivity].
  - destruct d as [t| | |].
    + apply (G n t); [intros r; constructor; assumption|reflexivity].
    + apply (G n b_infinity); [intros r; apply L_pos|reflexivity].
    + apply (G n (45 :: b_infinity)); [intros r; apply L_neg|reflexivity].
    + destruct (IH o w) as (r & L & w' & E). exists r. split; [constructor; exact L|]. exists w'. exact E.
  - apply (G n ([34] ++ escapeStringLit s ++ [34])); [intros r; apply L_string; [apply escape_denotes|exact (escape_line s)]|reflexivity].
  - exfalso. apply (NE n e). left. reflexivity.
Qed.

(** ** Texts that are not JSON: a scan that every JSON text passes *)
Inductive mode := Out | Dot | InStr | Esc.
Definition step (m : option mode) (c : Z) : option mode :=
  match m with
  | None => None
  | Some Out => if c =? 34 then Some InStr else if c =? 46 then Some Dot else Some Out
  | Some Dot => if (48 <=? c) && (c <=? 57) then Some Out else None
  | Some InStr => if c <? 32 then None else if c =? 34 then Some Out else if c =? 92 then Some Esc else Some InStr
  | Some Esc => Some InStr
  end.
Definition scan (m : mode) (t : str) : option mode := fold_left step t (Some m).
Lemma scan_app m n a b : scan m a = Some n -> scan m (a ++ b) = scan n b.
Proof. unfold scan. intros H. rewrite fold_left_app, H. reflexivity. Qed.
Lemma scan_out : forall t, (forall c, In c t -> c <> 34 /\ c <> 46) -> scan Out t = Some Out.
Proof.
  induction t as [|c t IH]; intros H; [reflexivity|]. unfold scan. cbn [fold_left step]. destruct (H c (or_introl eq_refl)) as (A & B).
  destruct (Z.eqb_spec c 34); [tauto|]. destruct (Z.eqb_spec c 46); [tauto|]. apply IH. intros d D. apply H. right. exact D.
Qed.
Lemma scan_in : forall t, (forall c, In c t -> 32 <= c /\ c <> 34 /\ c <> 92) -> scan InStr t = Some InStr.
Proof.
  induction t as [|c t IH]; intros H; [reflexivity|]. unfold scan. cbn [fold_left step]. destruct (H c (or_introl eq_refl)) as (Z & A & B).
  destruct (Z.ltb_spec c 32); [lia|]. destruct (Z.eqb_spec c 34); [tauto|]. destruct (Z.eqb_spec c 92); [tauto|]. apply IH. intros d D. apply H. right. exact D.
Qed.
Lemma scan_blank b : Forall blank b -> scan Out b = Some Out.
Proof. intros F. apply scan_out. intros c H. rewrite Forall_forall in F. specialize (F c H). unfold blank in F. lia. Qed.
Lemma digits_plain l : Forall is_digit l -> forall c, In c l -> c <> 34 /\ c <> 46.
Proof. intros F c H. rewrite Forall_forall in F. specialize (F c H). unfold is_digit in F. lia. Qed.
Lemma scan_number t : json_number t -> scan Out t = Some Out.
Proof.
  intros (sg & i & f & x & -> & S & I & F & X).
  rewrite (scan_app Out Out); [|apply scan_out; intros c H; destruct S as [-> | ->]; cbn in H; lia].
  rewrite (scan_app Out Out).
  2: { apply scan_out. intros c H. inversion I as [|d l Hd Hl]; subst; cbn in H; [lia|]. destruct H as [H|H]; [lia|]. exact (digits_plain l Hl c H). }
  rewrite (scan_app Out Out).
  2: { inversion F as [|c l Hc Hl]; subst; [reflexivity|]. unfold is_digit in Hc.
       change (46 :: c :: l) with ([46] ++ [c] ++ l). rewrite (scan_app Out Dot) by reflexivity. rewrite (scan_app Dot Out).
       - apply scan_out, digits_plain, Hl.
       - unfold scan. cbn [fold_left step]. destruct (Z.leb_spec 48 c); [|lia]. destruct (Z.leb_spec c 57); [reflexivity|lia]. }
  apply scan_out. intros c H. inversion X as [|e s d l He Hs Hd Hl]; subst; cbn in H; [tauto|]. unfold is_digit in Hd. rewrite in_app_iff in H. cbn in H.
  destruct H as [H|[H|[H|H]]]; [lia|destruct Hs as [->|[->| ->]]; cbn in H; lia|lia|]. exact (digits_plain l Hl c H).
Qed.
Lemma hex4_plain t v : hex4 t v -> forall c, In c t -> 32 <= c /\ c <> 34 /\ c <> 92.
Proof. intros (a & b & c & d & w & x & y & z & -> & A & B & C & D & _) e H. unfold hex_of in *. cbn in H. intuition lia. Qed.
Lemma scan_chars t v : chars t v -> scan InStr t = Some InStr.
Proof.
  induction 1 as [|t v ts vs D P C IH]; [reflexivity|]. rewrite (scan_app InStr InStr); [exact IH|].
  destruct D as [c A B| | | | | | | | |t cp H _|t hi u lo H _ K _]; try reflexivity.
  - apply scan_in. intros d [<-|[]]. specialize (P c eq_refl). tauto.
  - change (92 :: 117 :: t) with ([92; 117] ++ t). rewrite (scan_app InStr InStr) by reflexivity. apply scan_in, (hex4_plain t cp H).
  - change (92 :: 117 :: t ++ 92 :: 117 :: u) with ([92; 117] ++ t ++ [92; 117] ++ u). rewrite (scan_app InStr InStr) by reflexivity.
    rewrite (scan_app InStr InStr) by (apply scan_in, (hex4_plain t hi H)). rewrite (scan_app InStr InStr) by reflexivity. apply scan_in, (hex4_plain u lo K).
Qed.
Lemma scan_quoted k n rest : chars k n -> scan Out (34 :: k ++ 34 :: rest) = scan Out rest.
Proof.
  intros C. change (34 :: k ++ 34 :: rest) with ([34] ++ k ++ [34] ++ rest). rewrite (scan_app Out InStr) by reflexivity.
  rewrite (scan_app InStr InStr) by (apply (scan_chars k n C)). rewrite (scan_app InStr Out) by reflexivity. reflexivity.
Qed.
Lemma scan_one c rest : c <> 34 -> c <> 46 -> scan Out (c :: rest) = scan Out rest.
Proof. intros A B. unfold scan. cbn [fold_left step]. destruct (Z.eqb_spec c 34); [tauto|]. destruct (Z.eqb_spec c 46); [tauto|]. reflexivity. Qed.
Lemma scan_member b k n b' t : Forall blank b -> chars k n -> Forall blank b' -> scan Out t = Some Out ->
  scan Out (b ++ 34 :: k ++ 34 :: b' ++ 58 :: t) = Some Out.
Proof.
  intros B C B' S. rewrite (scan_app Out Out) by (apply scan_blank, B). rewrite (scan_quoted k n) by exact C.
  rewrite (scan_app Out Out) by (apply scan_blank, B'). rewrite scan_one by lia. exact S.
Qed.
Scheme json_ind' := Induction for json Sort Prop with elements_ind' := Induction for elements Sort Prop with members_ind' := Induction for members Sort Prop.
Lemma scan_json : forall t v, json t v -> scan Out t = Some Out.
Proof.
  apply (json_ind' (fun t v _ => scan Out t = Some Out) (fun t l _ => scan Out t = Some Out) (fun t l _ => scan Out t = Some Out)); try reflexivity.
  - intros b t b' v B B' _ IH. rewrite (scan_app Out Out) by (apply scan_blank, B). rewrite (scan_app Out Out) by exact IH. apply scan_blank, B'.
  - intros t N. apply scan_number, N.
  - intros t v C. rewrite (scan_quoted t v) by exact C. reflexivity.
  - intros b B. rewrite scan_one by lia. rewrite (scan_app Out Out) by (apply scan_blank, B). reflexivity.
  - intros t l _ IH. rewrite scan_one by lia. rewrite (scan_app Out Out) by exact IH. reflexivity.
  - intros b B. rewrite scan_one by lia. rewrite (scan_app Out Out) by (apply scan_blank, B). reflexivity.
  - intros t l _ IH. rewrite scan_one by lia. rewrite (scan_app Out Out) by exact IH. reflexivity.
  - intros t v J IH. exact IH.
  - intros t v ts vs _ IH _ IH2. rewrite (scan_app Out Out) by exact IH. rewrite scan_one by lia. exact IH2.
  - intros b k n b' t v B C B' _ IH. apply (scan_member b k n b' t); assumption.
  - intros b k n b' t v ts vs B C B' _ IH _ IH2. rewrite (scan_app Out Out) by (apply (scan_member b k n b' t); assumption).
    rewrite scan_one by lia. exact IH2.
Qed.
Lemma not_json t : scan Out t <> Some Out -> forall v, ~ json t v.
Proof. intros H v J. apply H, (scan_json t v J). Qed.
Lemma positive_number c l : 49 <= c <= 57 -> Forall is_digit l -> json_number (c :: l).
Proof. intros C L. exists [], (c :: l), [], []. rewrite !app_nil_r. repeat split; auto; [apply IP_pos; assumption|apply FP_none|apply EP_none]. Qed.
