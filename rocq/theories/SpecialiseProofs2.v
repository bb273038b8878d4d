(** Registry of instances and names of instances. *)
Require Import List Arith Bool Lia String Ascii FinFun.
Require DecimalString DecimalNat Decimal DecimalFacts.
From Verif Require Import SpecialiseModel SpecialiseSpec.
Import ListNotations.

Lemma kty_eqb_eq : forall a b, kty_eqb a b = true <-> a = b.
Proof.
  intros [v o c i] [v' o' c' i']. unfold kty_eqb. cbn. rewrite !andb_true_iff, !Bool.eqb_true_iff, !Nat.eqb_eq. split.
  - intros [[[-> ->] ->] ->]. reflexivity.
  - intros E. injection E as -> -> -> ->. auto.
Qed.
Lemma list_eqb_eq : forall A (f : A -> A -> bool), (forall a b, f a b = true <-> a = b) ->
  forall l l', list_eqb f l l' = true <-> l = l'.
Proof.
  intros A f F. induction l as [|a l IH]; intros [|b l']; cbn; split; intros E; try discriminate; try reflexivity.
  - apply andb_true_iff in E. destruct E as [E1 E2]. apply F in E1. apply IH in E2. congruence.
  - injection E as -> ->. apply andb_true_iff. split; [apply F; reflexivity|apply IH; reflexivity].
Qed.
Lemma key_eqb_eq : forall a b, key_eqb a b = true <-> a = b.
Proof.
  intros [[n t] p] [[n' t'] p']. unfold key_eqb. rewrite !andb_true_iff, String.eqb_eq.
  rewrite (list_eqb_eq _ _ kty_eqb_eq), (list_eqb_eq _ _ String.eqb_eq). split.
  - intros [[-> ->] ->]. reflexivity.
  - intros E. injection E as -> -> ->. auto.
Qed.
Lemma key_eqb_refl : forall k, key_eqb k k = true. Proof. intros k. apply key_eqb_eq. reflexivity. Qed.
Lemma mem_key_in : forall k l, mem_key k l = true <-> In k l.
Proof.
  intros k l. unfold mem_key. rewrite existsb_exists. split.
  - intros (x & X & E). apply key_eqb_eq in E. subst. exact X.
  - intros X. exists k. split; [exact X|apply key_eqb_refl].
Qed.

Record Reg (p : list kcall) (r : registry) : Prop := {
  g_lt : forall k i, find_key k (r_map r) = Some i -> i < r_count r;
  g_inj : forall k k' i, find_key k (r_map r) = Some i -> find_key k' (r_map r) = Some i -> k = k';
  g_inst : forall k, In k (r_inst r) <-> exists c, In c p /\ (k = concrete_key c \/ k = par_key c)
}.
Lemma step_reg : forall p r c r' a, Reg p r -> get_or_insert r c = (r', a) ->
  Reg (p ++ [c]) r' /\ (forall k i, find_key k (r_map r) = Some i -> find_key k (r_map r') = Some i) /\
  find_key (base_key c) (r_map r') = Some (a_id a) /\
  (a_exists a = true <-> exists c', In c' p /\ (concrete_key c = concrete_key c' \/ concrete_key c = par_key c')).
Proof.
  intros p r c r' a [L J G] E. unfold get_or_insert in E.
  assert (MAP : forall m1 n1 i, match find_key (base_key c) (r_map r) with
                 | Some i => (r_map r, r_count r, i)
                 | None => ((base_key c, r_count r) :: r_map r, S (r_count r), r_count r)
                 end = (m1, n1, i) ->
     (forall k j, find_key k m1 = Some j -> j < n1) /\
     (forall k k' j, find_key k m1 = Some j -> find_key k' m1 = Some j -> k = k') /\
     (forall k j, find_key k (r_map r) = Some j -> find_key k m1 = Some j) /\ find_key (base_key c) m1 = Some i).
  { intros m1 n1 i Q. destruct (find_key (base_key c) (r_map r)) as [j|] eqn:F; injection Q as <- <- <-.
    - auto.
    - cbn [find_key]. split; [|split; [|split]].
      + intros k j. destruct (key_eqb k (base_key c)); [intros X; injection X as <-; lia|intros X; apply L in X; lia].
      + intros k k' j. destruct (key_eqb k (base_key c)) eqn:K1, (key_eqb k' (base_key c)) eqn:K2; intros X Y.
        * apply key_eqb_eq in K1. apply key_eqb_eq in K2. congruence.
        * injection X as <-. apply L in Y. lia.
        * injection Y as <-. apply L in X. lia.
        * eapply J; eassumption.
      + intros k j X. destruct (key_eqb k (base_key c)) eqn:K1; [apply key_eqb_eq in K1; congruence|exact X].
      + rewrite key_eqb_refl. reflexivity. }
  destruct (match find_key (base_key c) (r_map r) with
                 | Some i => (r_map r, r_count r, i)
                 | None => ((base_key c, r_count r) :: r_map r, S (r_count r), r_count r)
                 end) as [[m1 n1] i]. destruct (MAP m1 n1 i eq_refl) as (M1 & M2 & M3 & M4). clear MAP.
  injection E as <- <-. cbn [a_id a_exists r_map].
  split; [|split; [exact M3|split; [exact M4|rewrite mem_key_in; apply G]]].
  split; cbn [r_map r_count r_inst]; [exact M1|exact M2|].
  intros k.
  set (inst1 := if mem_key (concrete_key c) (r_inst r) then r_inst r else concrete_key c :: r_inst r).
  assert (I1 : In k inst1 <-> In k (r_inst r) \/ k = concrete_key c).
  { unfold inst1. destruct (mem_key (concrete_key c) (r_inst r)) eqn:Q.
    - apply mem_key_in in Q. split; [auto|intros [X| ->]; assumption].
    - cbn. split; intros [X|X]; auto. }
  assert (I2 : In k (if mem_key (par_key c) inst1 then inst1 else par_key c :: inst1) <-> In k inst1 \/ k = par_key c).
  { destruct (mem_key (par_key c) inst1) eqn:Q.
    - apply mem_key_in in Q. split; [auto|intros [X| ->]; assumption].
    - cbn. split; intros [X|X]; auto. }
  rewrite I2, I1, G. split.
  - intros [[(c' & X & Y)| ->]| ->].
    + exists c'. split; [apply in_or_app; left; exact X|exact Y].
    + exists c. split; [apply in_or_app; right; left; reflexivity|left; reflexivity].
    + exists c. split; [apply in_or_app; right; left; reflexivity|right; reflexivity].
  - intros (c' & X & Y). apply in_app_or in X. destruct X as [X|[<-|[]]].
    + left. left. exists c'. auto.
    + destruct Y as [-> | ->]; auto.
Qed.

Lemma serve_reg : forall l p r, Reg p r ->
  List.length (serve r l) = List.length l /\
  exists m, (forall k i, find_key k (r_map r) = Some i -> find_key k m = Some i) /\
    (forall k k' i, find_key k m = Some i -> find_key k' m = Some i -> k = k') /\
    forall n c a, nth_error l n = Some c -> nth_error (serve r l) n = Some a ->
      find_key (base_key c) m = Some (a_id a) /\
      (a_exists a = true <-> exists c', In c' (p ++ firstn n l) /\ (concrete_key c = concrete_key c' \/ concrete_key c = par_key c')).
Proof.
  induction l as [|c l IH]; intros p r R.
  - split; [reflexivity|]. exists (r_map r). split; [auto|]. split; [exact (g_inj _ _ R)|]. intros [|n] c a X; discriminate.
  - cbn [serve]. destruct (get_or_insert r c) as [r' a] eqn:E. destruct (step_reg p r c r' a R E) as (R' & M1 & F & X).
    destruct (IH (p ++ [c]) r' R') as (LE & m & M2 & J & A). split; [cbn; rewrite LE; reflexivity|]. exists m.
    split; [auto|]. split; [exact J|]. intros [|n] c' a' Y Z; cbn in Y, Z.
    + injection Y as <-. injection Z as <-. cbn. rewrite app_nil_r. split; [apply M2; exact F|exact X].
    + destruct (A n c' a' Y Z) as [A1 A2]. split; [exact A1|]. rewrite A2. cbn [firstn]. rewrite <- app_assoc. reflexivity.
Qed.

Lemma same_types : forall l l', map mk_present (map mk_par l) = map mk_present (map mk_par l') <-> Forall2 same_up_to_inst l l'.
Proof.
  induction l as [|[v o c i] l IH]; intros [|[v' o' c' i'] l']; cbn; split; intros E; try discriminate; try (inversion E; fail); try constructor.
  - unfold mk_present, mk_par in E. cbn in E. injection E as -> -> E. split; reflexivity.
  - injection E as -> -> E. apply IH. exact E.
  - inversion E as [|x y m m' [A B] F]; subst. cbn in A, B. unfold mk_present, mk_par. cbn. subst. f_equal. apply IH. exact F.
Qed.

(** ** names *)
Lemma digits_no_at : forall u s, after_at (DecimalString.NilEmpty.string_of_uint u ++ String at_sign s)%string = Some s.
Proof. induction u; intros s; cbn; try apply IHu; reflexivity. Qed.
Lemma demangle_mangle : forall i s, demangle (mangle i s) = s.
Proof. intros i s. unfold demangle, mangle. rewrite (proj2 (Ascii.eqb_eq _ _) eq_refl), digits_no_at. reflexivity. Qed.
Lemma app_inj_r : forall a b s : string, (a ++ s = b ++ s -> a = b)%string.
Proof.
  assert (LN : forall x y, String.length (x ++ y)%string = String.length x + String.length y) by (induction x; cbn; intros; [|rewrite IHx]; reflexivity).
  induction a as [|c a IH]; intros [|d b] s E; cbn in E; [reflexivity| | |].
  - exfalso. apply (f_equal String.length) in E. cbn in E. rewrite LN in E. lia.
  - exfalso. apply (f_equal String.length) in E. cbn in E. rewrite LN in E. lia.
  - injection E as -> E. f_equal. eapply IH. exact E.
Qed.
Lemma mangle_inj : forall i s j t, mangle i s = mangle j t -> i = j /\ s = t.
Proof.
  intros i s j t E. assert (S : s = t) by (rewrite <- (demangle_mangle i s), E; apply demangle_mangle). split; [|exact S].
  subst t. unfold mangle in E. injection E as E. apply app_inj_r in E.
  apply DecimalNat.Unsigned.to_uint_inj.
  assert (Q : Some (Nat.to_uint i) = Some (Nat.to_uint j)) by
    (rewrite <- (DecimalString.NilEmpty.usu (Nat.to_uint i)), <- (DecimalString.NilEmpty.usu (Nat.to_uint j)); congruence).
  congruence.
Qed.

Lemma mem_in : forall s l, mem s l = true <-> In s l.
Proof.
  intros s l. unfold mem. rewrite existsb_exists. split.
  - intros (x & X & E). apply String.eqb_eq in E. subst. exact X.
  - intros X. exists s. split; [exact X|apply String.eqb_refl].
Qed.
Fixpoint unders (n : nat) (s : string) : string := match n with O => s | S n => unders n (underscore s) end.
Lemma unders_len : forall n s, String.length (unders n s) = n + String.length s.
Proof. induction n; intros s; cbn; [reflexivity|]. rewrite IHn. cbn. lia. Qed.
Lemma fresh_spec : forall n used s s', fresh n used s = Some s' -> ~ In s' used /\ exists k, s' = unders k s.
Proof.
  induction n as [|n IH]; intros used s s' E; cbn in E; destruct (mem s used) eqn:M; try discriminate.
  - injection E as <-. split; [intros X; apply mem_in in X; congruence|exists 0; reflexivity].
  - apply IH in E. destruct E as [A [k B]]. split; [exact A|exists (S k); exact B].
  - injection E as <-. split; [intros X; apply mem_in in X; congruence|exists 0; reflexivity].
Qed.
Lemma fresh_none : forall n used s, fresh n used s = None -> forall k, k <= n -> In (unders k s) used.
Proof.
  induction n as [|n IH]; intros used s E k L; cbn in E; destruct (mem s used) eqn:M; try discriminate; apply mem_in in M.
  - replace k with 0 by lia. exact M.
  - destruct k as [|k]; [exact M|]. cbn. apply IH; [exact E|lia].
Qed.
Lemma fresh_some : forall used s, fresh (List.length used) used s <> None.
Proof.
  intros used s E. pose proof (fresh_none _ _ _ E) as F.
  assert (N : NoDup (map (fun k => unders k s) (seq 0 (S (List.length used))))).
  { apply Injective_map_NoDup; [|apply seq_NoDup]. intros a b Q. apply (f_equal String.length) in Q. rewrite !unders_len in Q. lia. }
  assert (I : incl (map (fun k => unders k s) (seq 0 (S (List.length used)))) used).
  { intros x X. apply in_map_iff in X. destruct X as (k & <- & X). apply in_seq in X. apply F. lia. }
  pose proof (NoDup_incl_length N I) as L. rewrite map_length, seq_length in L. lia.
Qed.
Lemma has_at_under : forall s, has_at (underscore s) = has_at s. Proof. reflexivity. Qed.
Lemma has_at_unders : forall k s, has_at (unders k s) = has_at s.
Proof. induction k; intros s; cbn; [reflexivity|]. rewrite IHk. apply has_at_under. Qed.
Lemma has_at_first : forall s, is_mangled s = true -> has_at (first_underscore s) = has_at s.
Proof. intros [|c s] E; [discriminate|]. cbn in E. apply Ascii.eqb_eq in E. subst c. reflexivity. Qed.
Lemma mangled_unders : forall k s, is_mangled s = true -> is_mangled (unders k (first_underscore s)) = false.
Proof.
  intros k s M. assert (X : forall k t, is_mangled (underscore t) = false /\ is_mangled (unders k (underscore t)) = false).
  { clear. induction k; intros t; cbn; [split; reflexivity|]. split; [reflexivity|]. apply IHk. }
  destruct s as [|c s]; [discriminate|]. apply X.
Qed.

Lemma rename_some : forall l used, rename used l <> None.
Proof.
  induction l as [|s l IH]; intros used; cbn; [discriminate|]. destruct (is_mangled s).
  - destruct (fresh _ used (first_underscore s)) as [s'|] eqn:E; [|exfalso; exact (fresh_some _ _ E)].
    destruct (rename (s' :: used) l) eqn:R; [discriminate|exfalso; exact (IH _ R)].
  - destruct (rename used l) eqn:R; [discriminate|exfalso; exact (IH _ R)].
Qed.
Lemma rename_spec : forall l used r, (forall s, In s l -> is_mangled s = true -> has_at s = true) -> rename used l = Some r ->
  List.length r = List.length l /\
  (forall n s t, nth_error l n = Some s -> nth_error r n = Some t ->
     if is_mangled s then ~ In t used /\ is_mangled t = false /\ has_at t = true /\ exists k, t = unders k (first_underscore s) else t = s) /\
  (forall n n' s s' t t', n < n' -> nth_error l n = Some s -> nth_error l n' = Some s' -> nth_error r n = Some t -> nth_error r n' = Some t' ->
     is_mangled s = true -> is_mangled s' = true -> t <> t').
Proof.
  induction l as [|s l IH]; intros used r A E; cbn in E.
  - injection E as <-. split; [reflexivity|]. split; intros [|n]; intros; cbn in *; try discriminate.
  - assert (A' : forall s0, In s0 l -> is_mangled s0 = true -> has_at s0 = true) by (intros; apply A; [right|]; assumption).
    destruct (is_mangled s) eqn:M.
    + destruct (fresh _ used (first_underscore s)) as [s'|] eqn:F; [|discriminate].
      destruct (rename (s' :: used) l) as [r'|] eqn:R; [|discriminate]. injection E as <-.
      destruct (IH _ _ A' R) as (L & P & Q). apply fresh_spec in F. destruct F as [F1 [k F2]].
      split; [cbn; rewrite L; reflexivity|]. split.
      * intros [|n] x t X Y; cbn in X, Y.
        -- injection X as <-. injection Y as <-. rewrite M. split; [exact F1|]. subst s'. split; [apply mangled_unders; exact M|].
           split; [rewrite has_at_unders, has_at_first by exact M; apply A; [left; reflexivity|exact M]|exists k; reflexivity].
        -- specialize (P n x t X Y). destruct (is_mangled x); [|exact P]. destruct P as (P1 & P2 & P3 & P4).
           split; [intros Z; apply P1; right; exact Z|]. auto.
      * intros [|n] [|n'] x x' t t' LT X X' Y Y' MX MX'; cbn in *; try lia.
        -- injection Y as <-. specialize (P n' x' t' X' Y'). rewrite MX' in P. destruct P as (P1 & _). intros ->. apply P1. left. reflexivity.
        -- eapply (Q n n'); try eassumption. lia.
    + destruct (rename used l) as [r'|] eqn:R; [|discriminate]. injection E as <-.
      destruct (IH _ _ A' R) as (L & P & Q). split; [cbn; rewrite L; reflexivity|]. split.
      * intros [|n] x t X Y; cbn in X, Y; [injection X as <-; injection Y as <-; rewrite M; reflexivity|apply (P n); assumption].
      * intros [|n] [|n'] x x' t t' LT X X' Y Y' MX MX'; cbn in *; try lia.
        -- injection X as <-. congruence.
        -- eapply (Q n n'); try eassumption. lia.
Qed.
