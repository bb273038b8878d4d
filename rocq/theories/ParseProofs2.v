(** The lexer reads the printed form of a readable expression as its tokens. *)
Require Import ZArith List Bool String Lia ZifyBool.
From Verif Require Import Base IntValModel IntValSpec IntValProofs StrModel TypeModel TypeProofs2 LexModel LexSpec LexProofs LexProofs2 LexProofs3 LexProofs4 LexProofs5 ParseModel ParseSpec ParseProofs.
Import ListNotations.
Open Scope Z_scope.

(** ** A text whose beginning settles the first token *)
Fixpoint derivs (r : re) (p : str) : re := match p with [] => r | c :: p' => derivs (deriv c r) p' end.
Definition spent (q : pat) (p : str) : bool :=
  match q with PLit l => Nat.leb (List.length l) (List.length p) || negb (prefixb p l) | PRe r => match derivs r p with RNone | REps => true | _ => false end end.
Lemma longest_none_all s : longest RNone s = None.
Proof. destruct s; reflexivity. Qed.
Lemma longest_spent p : forall r rest, derivs r p = RNone \/ derivs r p = REps -> longest r (p ++ rest) = longest r p.
Proof.
  induction p as [|c p IH]; intros r rest H; cbn [derivs app] in *.
  - destruct H as [-> | ->]; [rewrite !longest_none_all; reflexivity|]. rewrite !longest_unfold. destruct rest; [reflexivity|]. cbn [deriv nullable]. rewrite longest_none_all. reflexivity.
  - rewrite (longest_unfold r (c :: p ++ rest)), (longest_unfold r (c :: p)). rewrite IH by exact H. reflexivity.
Qed.
Lemma prefixb_app l p rest : (List.length l <= List.length p)%nat -> prefixb l (p ++ rest) = prefixb l p.
Proof.
  revert p. induction l as [|c l IH]; intros [|d p] H; cbn [List.length app prefixb] in *; try reflexivity; try lia. rewrite IH by lia. reflexivity.
Qed.
Lemma prefixb_long l p : (List.length p < List.length l)%nat -> prefixb l p = false.
Proof. revert p. induction l as [|c l IH]; intros [|d p] H; cbn [List.length prefixb] in *; try reflexivity; try lia. rewrite IH by lia. apply andb_false_r. Qed.
Lemma prefixb_diverge l : forall p rest, prefixb p l = false -> (List.length p < List.length l)%nat -> prefixb l (p ++ rest) = false.
Proof.
  induction l as [|c l IH]; intros [|d p] rest H L; cbn [List.length app prefixb] in *; try lia; try discriminate.
  rewrite Z.eqb_sym. destruct (d =? c) eqn:E; [|reflexivity]. cbn [andb] in *. apply IH; [exact H|lia].
Qed.
Lemma plen_spent q p rest : spent q p = true -> plen q (p ++ rest) = plen q p.
Proof.
  destruct q as [l|r]; cbn [spent plen].
  - intros H. destruct (Nat.leb (List.length l) (List.length p)) eqn:E; [apply Nat.leb_le in E; rewrite prefixb_app by exact E; reflexivity|]. cbn [orb] in H. apply negb_true_iff in H. apply Nat.leb_gt in E.
    rewrite prefixb_diverge by assumption. rewrite prefixb_long by lia. reflexivity.
  - intros H. apply longest_spent. destruct (derivs r p); try discriminate; tauto.
Qed.
Definition settled (s : sc) (p : str) : bool := forallb (fun r => negb (active (r_cond r) s) || spent (r_pat r) p) rules.
Lemma best_settled_gen s p rest : forall rs, forallb (fun r => negb (active (r_cond r) s) || spent (r_pat r) p) rs = true -> best s rs (p ++ rest) = best s rs p.
Proof.
  Transparent best. induction rs as [|r rs IH]; intros H; [reflexivity|]. cbn [forallb best] in *. apply andb_true_iff in H as [H1 H2]. rewrite (IH H2).
  destruct (active (r_cond r) s); [|reflexivity]. cbn [negb orb] in H1. rewrite plen_spent by exact H1. reflexivity.
Qed.
Opaque best.
Lemma best_settled s p rest : settled s p = true -> best s rules (p ++ rest) = best s rules p.
Proof. apply best_settled_gen. Qed.

(** reading a fixed text t, of symbols and blanks, before a text that begins with la, or (if e is set) at the end *)
Fixpoint chew (e : bool) (fuel : nat) (s : sc) (t la : str) : option (list token) :=
  match fuel, t with
  | _, [] => Some []
  | O, _ => None
  | S fuel', _ =>
      if e || settled s (t ++ la) then
        match best s rules (t ++ la) with
        | Some (S n, a) =>
            if Nat.leb (S n) (List.length t) then
              match a, chew e fuel' s (skipn (S n) t) la with
              | ASkip, r => r
              | ASym x, Some l => Some (TSym x :: l)
              | ABool x, Some l => Some (TBool x :: l)
              | AChar, Some l => Some (TChar (hd 0 t) :: l)
              | _, _ => None
              end
            else None
        | _ => None
        end
      else None
  end.
Lemma chew_ok e : forall fuel st buf t la rest l toks, (e = true -> rest = []) -> chew e fuel (hd INITIAL st) t la = Some l -> lexes false st buf (la ++ rest) toks -> lexes false st buf (t ++ la ++ rest) (l ++ toks).
Proof.
  induction fuel as [|fuel IH]; intros st buf t la rest l tk He H Hl.
  - destruct t; [|discriminate]. cbn in H. injection H as <-. exact Hl.
  - destruct t as [|c t]; [cbn in H; injection H as <-; exact Hl|]. cbn [chew] in H. set (u := c :: t) in *.
    destruct (e || settled (hd INITIAL st) (u ++ la)) eqn:S1; [|discriminate]. destruct (best (hd INITIAL st) rules (u ++ la)) as [[[|n] a]|] eqn:B; try discriminate.
    destruct (Nat.leb (S n) (List.length u)) eqn:L; [|discriminate]. apply Nat.leb_le in L.
    assert (Eu : u ++ la ++ rest = firstn (S n) u ++ (skipn (S n) u ++ la ++ rest)) by (rewrite (app_assoc (firstn _ _)), firstn_skipn; reflexivity).
    assert (B' : best (hd INITIAL st) rules (firstn (S n) u ++ (skipn (S n) u ++ la ++ rest)) = Some (List.length (firstn (S n) u), a)).
    { rewrite <- Eu, app_assoc. assert (best (hd INITIAL st) rules ((u ++ la) ++ rest) = best (hd INITIAL st) rules (u ++ la)) as -> by (destruct e; [rewrite (He eq_refl), app_nil_r; reflexivity|apply best_settled; exact S1]). rewrite B. rewrite firstn_length, Nat.min_l by exact L. reflexivity. }
    assert (N : firstn (S n) u <> []) by discriminate.
    assert (G : forall t' l', run false a (firstn (S n) u) st buf = Ok (t', st, buf) -> chew e fuel (hd INITIAL st) (skipn (S n) u) la = Some l' -> lexes false st buf (u ++ la ++ rest) (otl t' (l' ++ tk))).
    { intros t' l' Hr Hc. rewrite Eu. eapply lexes_step; [exact N|exact B'|exact Hr|]. apply IH; assumption. }
    destruct a; try discriminate; destruct (chew e fuel (hd INITIAL st) (skipn (S n) u) la) as [l'|] eqn:C; try discriminate; injection H as <-.
    + exact (G None l' eq_refl eq_refl).
    + exact (G (Some (TSym name)) l' eq_refl eq_refl).
    + exact (G (Some (TBool b)) l' eq_refl eq_refl).
    + exact (G (Some (TChar c)) l' eq_refl eq_refl).
Qed.

Lemma forallb_in {A} (f : A -> bool) l x : forallb f l = true -> In x l -> f x = true.
Proof. intros H. rewrite forallb_forall in H. apply H. Qed.
(** ** What comes before and after an expression *)
Definition startb (c : Z) : bool := idcharb c || existsb (Z.eqb c) [39; 34; 40; 91; 45; 43].
Definition starts : list Z := filter startb all_bytes.
Lemma startb_in c : startb c = true -> In c starts.
Proof.
  intros H. apply filter_In. split; [|exact H]. apply byte_in. unfold startb in H. apply orb_true_iff in H as [H|H].
  - unfold idcharb, in_ranges in H. cbn [existsb fst snd] in H. lia.
  - cbn [existsb] in H. lia.
Qed.
(** a text that an expression starts with *)
Definition begins (t : str) : Prop := exists c r, t = c :: r /\ startb c = true /\ (c = 45 -> exists d r', r = d :: r' /\ startb d = true).
Lemma begins_app t r : begins t -> begins (t ++ r).
Proof. intros (c & x & -> & H & D). exists c, (x ++ r). split; [reflexivity|]. split; [exact H|]. intros E. destruct (D E) as (d & y & -> & Hd). exists d, (y ++ r). split; [reflexivity|exact Hd]. Qed.
(** what comes after it *)
Definition followers : list Z := [43; 45; 42; 94; 47; 32; 60; 62; 61; 33; 41; 44; 91; 93].
Definition follow (t : str) : Prop := match t with [] => True | c :: r => In c followers \/ exists r', c = 46 /\ r = 46 :: r' end.
Lemma follow_breaks t : follow t -> breaks t.
Proof.
  destruct t as [|c t]; cbn [follow breaks]; [tauto|]. intros H. unfold is_idchar, is_letter. destruct H as [H|(r' & -> & _)]; [|lia]. cbn [followers In] in H. lia.
Qed.
Lemma follow_ends t : follow t -> ends_number t.
Proof.
  destruct t as [|c t]; cbn [follow ends_number]; [tauto|]. intros [H|(r' & -> & ->)]; [cbn [followers In] in H|]; lia.
Qed.

Definition op_ok (o : bot) (c : Z) : bool := match o with OPlus => negb (c =? 43) | OPow => negb (c =? 45) | _ => true end.
Definition bots : list bot := [OEquiv; OImpl; ORimpl; OOr; OXor; OAnd; OLe; OLq; OGr; OGq; OEq; ONq; OIn; OSubset; OSuperset; OUnion; ODiff; OSymdiff; OIntersect; ODotdot; OPlus; OMinus; OMult; ODiv; OIdiv; OMod; OPow; OPlusplus].
Definition tok_is (t : token) (l : option (list token)) : bool := match l, t with Some [TSym x], TSym y => String.eqb x y | Some [TBool x], TBool y => Bool.eqb x y | Some [TChar x], TChar y => Z.eqb x y | _, _ => false end.
Lemma tok_is_ok t l : tok_is t l = true -> l = Some [t].
Proof.
  destruct l as [[|[] [|]]|]; try discriminate; destruct t; try discriminate; cbn [tok_is]; intros H.
  - apply String.eqb_eq in H. congruence.
  - apply Z.eqb_eq in H. congruence.
  - apply Bool.eqb_prop in H. congruence.
Qed.
Definition chews (t : str) (s : sc) (la : str) : option (list token) := chew false (List.length t) s t la.
Definition ends (t : str) (s : sc) : option (list token) := chew true (List.length t) s t [].
Lemma chews_ok st buf t la r k tk : chews t (hd INITIAL st) la = Some [k] -> lexes false st buf (la ++ r) tk -> lexes false st buf (t ++ la ++ r) (k :: tk).
Proof. intros H Hl. refine (chew_ok false (List.length t) st buf t la r [k] tk _ H Hl). discriminate. Qed.
Lemma ends_ok st buf t k tk : ends t (hd INITIAL st) = Some [k] -> lexes false st buf [] tk -> lexes false st buf (t ++ []) (k :: tk).
Proof. intros H Hl. refine (chew_ok true (List.length t) st buf t [] [] [k] tk _ H Hl). reflexivity. Qed.
Opaque chews ends.
Lemma op_check : forallb (fun s => forallb (fun o => forallb (fun c => negb (op_ok o c) || tok_is (TSym (op_sym o)) (chews (op_text o) s [c])) starts) bots) normals = true.
Proof. vm_compute. reflexivity. Qed.
Lemma pow_check : forallb (fun s => forallb (fun d => (d =? 49) || tok_is (TSym "MZN_POW") (chews (txt "^") s [45; d])) starts) normals = true.
Proof. vm_compute. reflexivity. Qed.

Local Notation before t k := (forallb (fun s => forallb (fun c => tok_is k (chews t s [c])) starts) normals).
Local Notation after t k := (forallb (fun s => tok_is k (chews t s [46; 46]) && tok_is k (ends t s) && forallb (fun c => tok_is k (chews t s [c])) followers) normals).
Lemma before_ok t k st buf r tk : before t k = true -> normal st -> begins r -> lexes false st buf r tk -> lexes false st buf (t ++ r) (k :: tk).
Proof.
  intros H Hst (c & r' & -> & Hc & _) Hl. pose proof (normal_in _ Hst) as Hst'. pose proof (startb_in c Hc) as Hc'. apply (forallb_in _ _ _ H) in Hst' as K. cbv beta in K. apply (forallb_in _ _ c K) in Hc'. cbv beta in Hc'. apply tok_is_ok in Hc'.
  exact (chews_ok st buf t [c] r' k tk Hc' Hl).
Qed.
Lemma after_ok t k st buf r tk : after t k = true -> normal st -> follow r -> lexes false st buf r tk -> lexes false st buf (t ++ r) (k :: tk).
Proof.
  intros H Hst Hr Hl. rewrite forallb_forall in H. specialize (H _ (normal_in _ Hst)). apply andb_true_iff in H as [H H3]. apply andb_true_iff in H as [H1 H2]. apply tok_is_ok in H1. apply tok_is_ok in H2.
  destruct r as [|c r].
  - apply (ends_ok st buf t k tk H2 Hl).
  - cbn [follow] in Hr. destruct Hr as [Hr|(r' & -> & ->)].
    + rewrite forallb_forall in H3. specialize (H3 c Hr). apply tok_is_ok in H3. apply (chews_ok st buf t [c] r k tk H3 Hl).
    + apply (chews_ok st buf t [46; 46] r' k tk H1 Hl).
Qed.

Lemma lexes_op o st buf r tk : normal st -> begins r -> (o = OPlus -> firstn 1 r <> txt "+") -> (o = OPow -> firstn 2 r <> txt "-1") -> lexes false st buf r tk -> lexes false st buf (op_text o ++ r) (TSym (op_sym o) :: tk).
Proof.
  intros Hst (c & r' & -> & Hc & Hd) Hp Hw Hl. pose proof op_check as K. rewrite forallb_forall in K. specialize (K _ (normal_in _ Hst)). rewrite forallb_forall in K.
  assert (Ho : In o bots) by (destruct o; cbn; tauto). specialize (K o Ho). rewrite forallb_forall in K. specialize (K c (startb_in c Hc)). apply orb_true_iff in K as [K|K].
  - apply negb_true_iff in K. destruct o; try discriminate K; cbn [op_ok] in K; apply negb_false_iff, Z.eqb_eq in K; subst c.
    + exfalso. apply (Hp eq_refl). reflexivity.
    + destruct (Hd eq_refl) as (d & r2 & -> & Hd2). pose proof pow_check as K. rewrite forallb_forall in K. specialize (K _ (normal_in _ Hst)). rewrite forallb_forall in K. specialize (K d (startb_in d Hd2)).
      apply orb_true_iff in K as [K|K]; [apply Z.eqb_eq in K; subst d; exfalso; apply (Hw eq_refl); reflexivity|]. apply tok_is_ok in K.
      apply (chews_ok st buf (txt "^") [45; d] r2 (TSym "MZN_POW") tk K Hl).
  - apply tok_is_ok in K. apply (chews_ok st buf (op_text o) [c] r' (TSym (op_sym o)) tk K Hl).
Qed.

(** round brackets *)
Local Notation opens_all := (forallb (fun s => match best s rules [40] with Some (1%nat, APushChar BRACKET) => settled s [40] | _ => false end) normals).
Lemma opens_all_ok : opens_all = true.
Proof. vm_compute. reflexivity. Qed.
Lemma lexes_open st buf r tk : normal st -> lexes false (BRACKET :: st) buf r tk -> lexes false st buf (40 :: r) (t_open :: tk).
Proof.
  intros Hst Hl. pose proof opens_all_ok as K. rewrite forallb_forall in K. specialize (K _ (normal_in _ Hst)).
  destruct (best (hd INITIAL st) rules [40]) as [[[|[|n]] a]|] eqn:B; try discriminate. destruct a; try discriminate. destruct s; try discriminate.
  change (40 :: r) with ([40] ++ r). change (t_open :: tk) with (otl (Some t_open) tk). eapply lexes_step; [discriminate|rewrite best_settled by exact K; exact B|reflexivity|exact Hl].
Qed.
Lemma close_ok : best BRACKET rules [41] = Some (1%nat, APopChar) /\ settled BRACKET [41] = true.
Proof. vm_compute. split; reflexivity. Qed.
Lemma lexes_close st buf r tk : normal st -> lexes false st buf r tk -> lexes false (BRACKET :: st) buf (41 :: r) (t_close :: tk).
Proof.
  intros Hst Hl. destruct close_ok as [B K]. change (41 :: r) with ([41] ++ r). change (t_close :: tk) with (otl (Some t_close) tk).
  eapply lexes_step; [discriminate|cbn [hd]; rewrite best_settled by exact K; exact B| |exact Hl]. cbn [run pop]. destruct (normal_hd _ Hst) as [_ N]. destruct st; [congruence|]. reflexivity.
Qed.
Lemma before_all : before (txt "not ") (TSym "MZN_NOT") = true /\ before (txt "-") (TSym "MZN_MINUS") = true /\ before (txt "if ") (TSym "MZN_IF") = true /\
  before (txt " then ") (TSym "MZN_THEN") = true /\ before (txt " elseif ") (TSym "MZN_ELSEIF") = true /\ before (txt " else ") (TSym "MZN_ELSE") = true /\
  before (txt "[") t_lb = true /\ before (txt ",") t_comma = true /\ before (txt " default ") (TSym "MZN_DEFAULT") = true.
Proof. vm_compute. repeat split. Qed.
Lemma plus_check : forallb (fun s => forallb (fun c => (c =? 43) || tok_is (TSym "MZN_PLUS") (chews (txt "+") s [c])) starts) normals = true.
Proof. vm_compute. reflexivity. Qed.
Lemma after_all : after (txt "true") (TBool true) = true /\ after (txt "false") (TBool false) = true /\ after (txt "infinity") (TSym "MZN_INFINITY") = true /\
  after (txt " endif") (TSym "MZN_ENDIF") = true /\ after (txt "]") t_rb = true /\ after (txt "^-1") (TSym "MZN_POW_MINUS1") = true.
Proof. vm_compute. repeat split. Qed.
