(** Proofs of C81 and C82. *)
Require Import ZArith List Bool Lia ZifyBool.
From Verif Require Import Base LitProofs IntValModel IntValSpec IntValProofs ArrModel ArrSpec ArrProofs AccessProofs BarrModel BarrProofs RedModel RedSpec RedProofs FmtModel FmtSpec.
Import ListNotations.
Open Scope Z_scope.
Ltac Zify.zify_post_hook ::= idtac.

(** ** UTF-8 *)
Definition expected (b : Z) : nat := if b <? 192 then 0 else if b <? 224 then 1 else if b <? 240 then 2 else if b <? 248 then 3 else 0.
Lemma extra_ok : forall b, 0 <= b < 256 -> extra b = expected b.
Proof.
  assert (H : forallb (fun k => Nat.eqb (extra (Z.of_nat k)) (expected (Z.of_nat k))) (seq 0 256) = true) by (vm_compute; reflexivity).
  intros b Hb. rewrite forallb_forall in H. specialize (H (Z.to_nat b)). rewrite Z2Nat.id in H by lia. apply Nat.eqb_eq, H, in_seq. lia.
Qed.
Lemma utf8_head : forall c, code_point c -> exists b r, utf8 c = b :: r /\ extra b = length r.
Proof.
  intros c [H1 H2]. unfold utf8. destruct (Z.ltb_spec c 128); [|destruct (Z.ltb_spec c 2048); [|destruct (Z.ltb_spec c 65536)]].
  - exists c, []. split; [reflexivity|]. rewrite extra_ok by lia. unfold expected. destruct (Z.ltb_spec c 192); [reflexivity|lia].
  - do 2 eexists. split; [reflexivity|]. assert (2 <= c / 64 < 32) by (split; [apply Z.div_le_lower_bound|apply Z.div_lt_upper_bound]; lia). rewrite extra_ok by lia. unfold expected.
    destruct (Z.ltb_spec (192 + c / 64) 192); [lia|]. destruct (Z.ltb_spec (192 + c / 64) 224); [reflexivity|lia].
  - do 2 eexists. split; [reflexivity|]. assert (0 <= c / 4096 < 16) by (split; [apply Z.div_le_lower_bound|apply Z.div_lt_upper_bound]; lia). rewrite extra_ok by lia. unfold expected.
    destruct (Z.ltb_spec (224 + c / 4096) 192); [lia|]. destruct (Z.ltb_spec (224 + c / 4096) 224); [lia|]. destruct (Z.ltb_spec (224 + c / 4096) 240); [reflexivity|lia].
  - do 2 eexists. split; [reflexivity|]. assert (0 <= c / 262144 < 5) by (split; [apply Z.div_le_lower_bound|apply Z.div_lt_upper_bound]; lia). rewrite extra_ok by lia. unfold expected.
    destruct (Z.ltb_spec (240 + c / 262144) 192); [lia|]. destruct (Z.ltb_spec (240 + c / 262144) 224); [lia|]. destruct (Z.ltb_spec (240 + c / 262144) 240); [lia|]. destruct (Z.ltb_spec (240 + c / 262144) 248); [reflexivity|lia].
Qed.
Lemma chars_utf8 : forall cs n elems, Forall code_point cs -> (length (flat_map utf8 cs) <= n)%nat -> chars n (flat_map utf8 cs) elems = Ok (elems ++ map utf8 cs).
Proof.
  induction cs as [|c cs IH]; intros n elems HF Hn; cbn [flat_map map] in *; [destruct n; rewrite app_nil_r; reflexivity|].
  inversion HF as [|? ? Hc HF']; subst. destruct (utf8_head c Hc) as (b & r & Hu & He). rewrite Hu in *. cbn [app length] in Hn. rewrite app_length in Hn. destruct n as [|n]; [lia|].
  cbn [app chars]. rewrite He, skipn_app, firstn_app, skipn_all, firstn_all, Nat.sub_diag. cbn [skipn firstn app]. rewrite app_nil_r, IH by (auto; lia). rewrite <- app_assoc. reflexivity.
Qed.
Lemma chars_any : forall n s elems, (length s <= n)%nat -> exists ps, chars n s elems = Ok (elems ++ ps) /\ concat ps = s /\ forall size, length_loop n s size = Ok (size + len ps).
Proof.
  induction n as [|n IH]; intros s elems Hn.
  - destruct s; [|cbn in Hn; lia]. exists []. cbn [chars length_loop]. rewrite app_nil_r. repeat split. intros. unfold len. cbn [length]. f_equal. lia.
  - destruct s as [|b r]; cbn [chars length_loop].
    + exists []. rewrite app_nil_r. repeat split. intros. unfold len. cbn [length]. f_equal. lia.
    + cbn [length] in Hn. destruct (IH (skipn (extra b) r) (elems ++ [b :: firstn (extra b) r])) as (ps & H1 & H2 & H3); [rewrite skipn_length; lia|].
      exists ((b :: firstn (extra b) r) :: ps). rewrite H1, <- app_assoc. split; [reflexivity|]. split; [cbn [concat app]; rewrite H2, firstn_skipn; reflexivity|].
      intros size. rewrite H3. unfold len. cbn [length]. f_equal. lia.
Qed.
Lemma length_utf8 : forall cs s, encodes cs s -> string_length s = Ok (len cs).
Proof.
  intros cs s [HF ->]. unfold string_length. destruct (chars_any (length (flat_map utf8 cs)) (flat_map utf8 cs) [] (le_n _)) as (ps & H1 & _ & H3). rewrite H3.
  rewrite chars_utf8 in H1 by (auto; lia). cbn [app] in H1. injection H1 as <-. unfold len. rewrite map_length. reflexivity.
Qed.
Lemma split_utf8 : forall cs s, encodes cs s -> string_split s [] = Ok (map utf8 cs).
Proof. intros cs s [HF ->]. unfold string_split. rewrite chars_utf8 by (auto; lia). reflexivity. Qed.
Lemma split_chars : forall s, exists ps, string_split s [] = Ok ps /\ concat ps = s /\ string_length s = Ok (len ps).
Proof.
  intros s. destruct (chars_any (length s) s [] (le_n _)) as (ps & H1 & H2 & H3). exists ps. split; [exact H1|]. split; [exact H2|]. unfold string_length. rewrite H3. reflexivity.
Qed.

(** ** Splitting *)
Lemma prefixb_iff : forall p s, prefixb p s = true <-> exists r, s = p ++ r.
Proof.
  induction p as [|x p IH]; intros s; cbn [prefixb app]; [split; [eauto|reflexivity]|]. destruct s as [|y s].
  - split; [discriminate|intros [r H]; discriminate].
  - rewrite andb_true_iff, IH, Z.eqb_eq. split; [intros [-> [r ->]]; eauto|intros [r H]; injection H as -> ->; eauto].
Qed.
Lemma find_some : forall sep s k, find sep s = Some k -> prefixb sep (skipn k s) = true /\ forall j, (j < k)%nat -> prefixb sep (skipn j s) = false.
Proof.
  intros sep. induction s as [|x s IH]; intros k H; cbn [find] in H.
  - destruct (prefixb sep []) eqn:P; [|discriminate]. injection H as <-. split; [exact P|lia].
  - destruct (prefixb sep (x :: s)) eqn:P; [injection H as <-; split; [exact P|lia]|]. destruct (find sep s) as [k'|]; [|discriminate]. injection H as <-.
    destruct (IH k' eq_refl) as [H1 H2]. split; [exact H1|]. intros [|j] Hj; [exact P|apply H2; lia].
Qed.
Lemma find_none : forall sep s, find sep s = None -> forall j, (j <= length s)%nat -> prefixb sep (skipn j s) = false.
Proof.
  intros sep. induction s as [|x s IH]; intros H j Hj; cbn [find] in H.
  - destruct (prefixb sep []) eqn:P; [discriminate|]. destruct j; exact P.
  - destruct (prefixb sep (x :: s)) eqn:P; [discriminate|]. destruct (find sep s) as [k'|]; [discriminate|]. destruct j as [|j]; [exact P|]. apply IH; [reflexivity|cbn in Hj; lia].
Qed.
Lemma skipn_here : forall A (a b : list A), skipn (length a) (a ++ b) = b.
Proof. intros. rewrite skipn_app, skipn_all, Nat.sub_diag. reflexivity. Qed.
Lemma find_cut : forall sep s k, find sep s = Some k -> exists p r, s = p ++ sep ++ r /\ length p = k /\ ends_first sep p.
Proof.
  intros sep s k H. destruct (find_some sep s k H) as [H1 H2]. apply prefixb_iff in H1 as [r Hr].
  assert (Hk : length (firstn k s) = k).
  { apply firstn_length_le. destruct (Nat.le_gt_cases k (length s)) as [L|L]; [exact L|]. exfalso. specialize (H2 (length s) L). rewrite skipn_all in H2. rewrite skipn_all2 in Hr by lia.
    symmetry in Hr. apply app_eq_nil in Hr as [-> ->]. discriminate. }
  exists (firstn k s), r. split; [rewrite <- Hr, firstn_skipn; reflexivity|]. split; [exact Hk|]. intros a b Hab.
  destruct b as [|x b]; [reflexivity|]. exfalso. assert (Hlen : (length a < k)%nat) by (apply (f_equal (@length Z)) in Hab; rewrite !app_length in Hab; cbn [length] in Hab; lia).
  specialize (H2 (length a) Hlen). apply not_true_iff_false in H2. apply H2. apply prefixb_iff. exists ((x :: b) ++ r).
  rewrite <- (firstn_skipn k s), Hr, app_assoc, Hab, <- app_assoc, skipn_here, <- app_assoc. reflexivity.
Qed.
Lemma find_free : forall sep s, find sep s = None -> free_of sep s.
Proof.
  intros sep s H a b ->. pose proof (find_none sep _ H (length a)) as P. rewrite skipn_here in P. rewrite app_length in P. specialize (P ltac:(lia)).
  apply not_true_iff_false in P. apply P, prefixb_iff. eauto.
Qed.
Lemma pieces_ok : forall sep, sep <> [] -> forall n s elems, (length s <= n)%nat -> exists ps, pieces n sep s elems = Ok (elems ++ ps) /\ joined sep ps = s /\ cut sep ps.
Proof.
  intros sep Hs. assert (0 < length sep)%nat by (destruct sep; [contradiction|cbn; lia]). induction n as [|n IH]; intros s elems Hn; cbn [pieces]; destruct (find sep s) as [k|] eqn:F.
  - destruct (find_cut sep s k F) as (p & r & -> & _ & _). rewrite !app_length in Hn. lia.
  - exists [s]. repeat split. cbn [cut]. apply find_free, F.
  - destruct (find_cut sep s k F) as (p & r & -> & <- & He). rewrite !app_length in Hn.
    replace (firstn (length p) (p ++ sep ++ r)) with p by (rewrite firstn_app, firstn_all, Nat.sub_diag; cbn [firstn]; rewrite app_nil_r; reflexivity).
    replace (skipn (length p + length sep) (p ++ sep ++ r)) with r by (rewrite app_assoc, <- app_length, skipn_here; reflexivity).
    destruct (IH r (elems ++ [p])) as (ps & H1 & H2 & H3); [lia|]. exists (p :: ps). rewrite H1, <- app_assoc. split; [reflexivity|]. destruct ps as [|q ps]; [destruct H3|].
    split; [cbn [joined]; cbn [joined] in H2; rewrite H2; reflexivity|]. split; assumption.
  - exists [s]. repeat split. cbn [cut]. apply find_free, F.
Qed.
Lemma split_ok : forall s sep, sep <> [] -> exists ps, string_split s sep = Ok ps /\ joined sep ps = s /\ cut sep ps.
Proof. intros s sep Hs. destruct (pieces_ok sep Hs (length s) s [] (le_n _)) as (ps & H). exists ps. destruct sep; [contradiction|exact H]. Qed.
Lemma cut_unique : forall sep ps qs, cut sep ps -> cut sep qs -> joined sep ps = joined sep qs -> ps = qs.
Proof.
  intros sep. induction ps as [|p ps IH]; intros qs Hp Hq HJ; [destruct Hp|]. destruct qs as [|q qs]; [destruct Hq|].
  destruct ps as [|p' ps], qs as [|q' qs].
  - cbn in HJ. congruence.
  - exfalso. cbn [cut] in Hp. apply (Hp q (joined sep (q' :: qs))). exact HJ.
  - exfalso. cbn [cut] in Hq. apply (Hq p (joined sep (p' :: ps))). symmetry. exact HJ.
  - destruct Hp as [Ep Hp]. destruct Hq as [Eq Hq]. change (p ++ sep ++ joined sep (p' :: ps) = q ++ sep ++ joined sep (q' :: qs)) in HJ.
    assert (HH : p ++ sep = q ++ sep /\ joined sep (p' :: ps) = joined sep (q' :: qs)).
    { rewrite !app_assoc in HJ. destruct (app_eq_app _ _ _ _ HJ) as (l & [[H1 H2]|[H1 H2]]).
      - rewrite <- app_assoc in H1. pose proof (Ep q l H1). subst l. rewrite app_nil_r in H1. auto.
      - rewrite <- app_assoc in H1. pose proof (Eq p l H1). subst l. rewrite app_nil_r in H1. auto. }
    destruct HH as [H1 H2]. apply app_inv_tail in H1. f_equal; [exact H1|]. apply IH; assumption.
Qed.
Lemma split_joined : forall sep ps, sep <> [] -> cut sep ps -> string_split (joined sep ps) sep = Ok ps.
Proof. intros sep ps Hs Hc. destruct (split_ok (joined sep ps) sep Hs) as (qs & H1 & H2 & H3). rewrite H1. f_equal. symmetry. apply (cut_unique sep); auto. Qed.

(** ** Joining *)
Section J.
Variable E : Type.
Variable eqb : E -> E -> bool.
Variable same : E -> E -> Prop.
Hypothesis same_refl : forall e, same e e.
Hypothesis same_sym : forall a b, same a b -> same b a.
Hypothesis same_trans : forall a b c, same a b -> same b c -> same a c.
Hypothesis eqb_same : forall a b, eqb a b = true -> same a b.
Variable ev_string : E -> res bytes.
Hypothesis ev_same : respects same ev_string.
Notation READ := (read_ev E eqb same same_refl same_sym same_trans eqb_same bytes ev_string).
Variables (a : arr E) (sh : shape) (el : list E) (ps : list bytes).
Hypothesis HB : built eqb a sh el.
Hypothesis HS : Forall2 (fun e p => ev_string e = Ok p) el ps.
Lemma lens : length el = length ps. Proof using HS. eapply Forall2_length; exact HS. Qed.
Lemma read_at_str : forall i p, nth_error ps i = Some p -> (do e <- get a (Z.of_nat i); ev_string e) = Ok p.
Proof using All.
  intros i p Hp. assert (exists e, nth_error el i = Some e /\ ev_string e = Ok p) as (e & He & Hv).
  { clear - HS Hp. revert i Hp. induction HS as [|e q el ps H HF IH]; intros [|i] Hp; cbn in *; try discriminate; [injection Hp as ->; eauto|eauto]. }
  rewrite (READ a sh el i e ev_same HB He). exact Hv.
Qed.
Lemma concat_loop_ok : forall n i oss, (i + n = length ps)%nat -> concat_loop ev_string a n (Z.of_nat i) oss = Ok (oss ++ concat (skipn i ps)).
Proof using All.
  induction n as [|n IH]; intros i oss Hi; cbn [concat_loop].
  - rewrite skipn_all2 by lia. rewrite app_nil_r. reflexivity.
  - destruct (nth_error ps i) as [p|] eqn:Hp; [|apply nth_error_None in Hp; lia]. rewrite (read_at_str i p Hp). cbn [bind]. replace (Z.of_nat i + 1) with (Z.of_nat (S i)) by lia.
    rewrite IH by lia. rewrite (skipn_S _ _ _ _ Hp). cbn [concat]. rewrite app_assoc. reflexivity.
Qed.
Lemma concat_ok : concat_str ev_string a = Ok (concat ps).
Proof using All.
  unfold concat_str. rewrite (size_len E eqb same same_refl same_sym same_trans eqb_same a sh el HB). cbn [bind]. unfold len. rewrite Nat2Z.id, lens. apply (concat_loop_ok (length ps) 0 []). lia.
Qed.
Lemma join_loop_ok : forall sep n i oss, (i + n = length ps)%nat -> (0 < length ps)%nat -> len ps <= INT_MAX ->
  join_loop ev_string sep a (len ps) n (Z.of_nat i) oss = Ok (oss ++ joined sep (skipn i ps)).
Proof using All.
  intros sep. induction n as [|n IH]; intros i oss Hi H0 HL; cbn [join_loop].
  - rewrite skipn_all2 by lia. cbn [joined]. rewrite app_nil_r. reflexivity.
  - destruct (nth_error ps i) as [p|] eqn:Hp; [|apply nth_error_None in Hp; lia]. rewrite (read_at_str i p Hp). cbn [bind]. replace (Z.of_nat i + 1) with (Z.of_nat (S i)) by lia.
    rewrite IH by (auto; lia). rewrite (skipn_S _ _ _ _ Hp). rewrite u32_small by (unfold len, INT_MAX in *; lia). destruct (Z.ltb_spec (Z.of_nat i) (len ps - 1)); unfold len in *.
    + destruct (skipn (S i) ps) as [|q r] eqn:Hk; [apply (f_equal (@length _)) in Hk; rewrite skipn_length in Hk; cbn [length] in Hk; lia|]. cbn [joined]. rewrite <- !app_assoc. reflexivity.
    + rewrite (skipn_all2 ps) by lia. cbn [joined]. rewrite !app_nil_r. reflexivity.
Qed.
Lemma join_ok : forall sep, join_str ev_string sep a = Ok (joined sep ps).
Proof using All.
  intros sep. unfold join_str. rewrite (size_len E eqb same same_refl same_sym same_trans eqb_same a sh el HB). cbn [bind].
  destruct (built_facts E eqb same same_refl same_sym same_trans eqb_same a sh el HB) as (_ & _ & Hc & (_ & _ & Hm) & _).
  replace (len el) with (len ps) in * by (unfold len; rewrite lens; reflexivity). unfold len at 2. rewrite Nat2Z.id. destruct ps as [|p r] eqn:Hps; [reflexivity|]. rewrite <- Hps in *.
  apply (join_loop_ok sep (length ps) 0 []); [lia|rewrite Hps; cbn; lia|lia].
Qed.
End J.

(** ** Justification *)
Lemma len_app : forall A (a b : list A), len (a ++ b) = len a + len b.
Proof. intros. unfold len. rewrite app_length. lia. Qed.
Lemma len_blanks : forall n, 0 <= n -> len (blanks n) = n.
Proof. intros n H. unfold len, blanks. rewrite repeat_length. lia. Qed.
Lemma blanks_0 : forall n, n <= 0 -> blanks n = [].
Proof. intros n H. unfold blanks. replace (Z.to_nat n) with O by lia. reflexivity. Qed.
Lemma neg_int_ok : forall w, INT_MIN < w -> neg_int w = Ok (- w).
Proof. intros w H. unfold neg_int. destruct (Z.eqb_spec w INT_MIN); [lia|reflexivity]. Qed.
Lemma toInt_int : forall v w, is_int v w -> toInt v = Ok w.
Proof. intros v w H. destruct (is_int_eq v w H) as [-> _]. reflexivity. Qed.
Lemma just_left : forall w t n, 0 <= w -> n = Z.max 0 (w - len t) -> justified w t (blanks n ++ t).
Proof.
  intros w t n Hw ->. split; [rewrite len_app, len_blanks by lia; assert (0 <= len t) by (unfold len; lia); lia|].
  exists (Z.to_nat (Z.max 0 (w - len t))). destruct (Z.ltb_spec w 0); [lia|reflexivity].
Qed.
Lemma just_right : forall w t n, w < 0 -> n = Z.max 0 (- w - len t) -> justified w t (t ++ blanks n).
Proof.
  intros w t n Hw ->. split; [rewrite len_app, len_blanks by lia; assert (0 <= len t) by (unfold len; lia); lia|].
  exists (Z.to_nat (Z.max 0 (- w - len t))). destruct (Z.ltb_spec w 0); [reflexivity|lia].
Qed.
Lemma len_pos : forall A (l : list A), 0 <= len l. Proof. intros. unfold len. lia. Qed.
Lemma show_padded_ok : forall v w t, is_int v w -> INT_MIN < w <= INT_MAX -> len t <= INT_MAX -> exists out, show_padded v t = Ok out /\ justified w t out.
Proof.
  intros v w t Hv Hw Ht. pose proof (len_pos _ t). unfold show_padded. rewrite (toInt_int v w Hv). cbn [bind]. rewrite !to_int_ok by (unfold INT_MIN, INT_MAX in *; lia). destruct (Z.ltb_spec w 0).
  - rewrite neg_int_ok by lia. cbn [bind]. eexists. split; [reflexivity|]. rewrite (blanks_0 (if 0 <? 0 then 0 else 0)) by (cbn; lia). cbn [app]. apply just_right; [lia|].
    destruct (Z.ltb_spec (- w - len t) 0); lia.
  - cbn [bind]. eexists. split; [reflexivity|]. rewrite (blanks_0 (if 0 <? 0 then 0 else 0)) by (cbn; lia). rewrite app_nil_r. apply just_left; [lia|].
    destruct (Z.ltb_spec (w - len t) 0); lia.
Qed.
Lemma pad_ok : forall w t, INT_MIN < w <= INT_MAX -> len t <= INT_MAX -> exists out, pad w t = Ok out /\ justified w t out.
Proof.
  intros w t Hw Ht. pose proof (len_pos _ t). unfold pad. rewrite !to_int_ok by (unfold INT_MIN, INT_MAX in *; lia). destruct (Z.ltb_spec w 0).
  - rewrite neg_int_ok by lia. cbn [bind]. destruct (Z.ltb_spec (len t) (- w)).
    + eexists. split; [reflexivity|]. rewrite (blanks_0 (if 0 <? 0 then 0 else 0)) by (cbn; lia). cbn [app]. apply just_right; [lia|]. destruct (Z.ltb_spec (- w - len t) 0); lia.
    + exists t. split; [reflexivity|]. rewrite <- (app_nil_r t) at 2. change (@nil Z) with (blanks 0). apply just_right; lia.
  - cbn [bind]. destruct (Z.ltb_spec (len t) w).
    + eexists. split; [reflexivity|]. rewrite (blanks_0 (if 0 <? 0 then 0 else 0)) by (cbn; lia). rewrite app_nil_r. apply just_left; [lia|]. destruct (Z.ltb_spec (w - len t) 0); lia.
    + exists t. split; [reflexivity|]. change t with (blanks 0 ++ t) at 2. apply just_left; lia.
Qed.
Lemma cut_len : forall p t, len (cut_off p t) <= len t.
Proof. intros [p|] t; unfold cut_off, len; [rewrite firstn_length|]; lia. Qed.
Lemma justify_ok : forall v w mp p t, is_int v w -> INT_MIN < w <= INT_MAX -> len t <= INT_MAX ->
  match mp, p with None, None => True | Some m, Some p => is_int m p /\ 0 <= p | _, _ => False end ->
  exists out, format_justify_string v mp t = Ok out /\ justified w (cut_off p t) out.
Proof.
  intros v w mp p t Hv Hw Ht Hp. unfold format_justify_string. cbv zeta. rewrite (toInt_int v w Hv). cbn [bind]. rewrite to_int_ok by (unfold INT_MIN in *; lia).
  assert (HH : match mp with None => Ok t | Some p0 => do p1 <- toInt p0; Ok (if p1 mod 2 ^ 64 <? len t then firstn (Z.to_nat (p1 mod 2 ^ 64)) t else t) end = Ok (cut_off p t)).
  { destruct mp as [m|], p as [p|]; try contradiction; [|reflexivity]. destruct Hp as [Hm Hp]. rewrite (toInt_int m p Hm). cbn [bind cut_off]. destruct (is_int_eq m p Hm) as [_ [_ F]].
    rewrite Z.mod_small by (unfold LLONG_MAX in *; lia). destruct (Z.ltb_spec p (len t)); [reflexivity|]. rewrite firstn_all2 by (unfold len in *; lia). reflexivity. }
  unfold bytes in *. rewrite HH. cbn [bind]. apply pad_ok; [assumption|]. pose proof (cut_len p t). lia.
Qed.
Lemma stream_ok : forall w t, INT_MIN < w <= INT_MAX -> exists out,
  (if 0 <? w then Ok (stream_pad w false t) else if w <? 0 then do x <- neg_int w; Ok (stream_pad x true t) else Ok t) = Ok out /\ justified w t out.
Proof.
  intros w t Hw. pose proof (len_pos _ t).
  assert (BM : forall z, blanks z = blanks (Z.max 0 z)) by (intros z; unfold blanks; f_equal; lia).
  destruct (Z.ltb_spec 0 w); [|destruct (Z.ltb_spec w 0)].
  - eexists. split; [reflexivity|]. unfold stream_pad. rewrite BM. apply just_left; lia.
  - rewrite neg_int_ok by lia. cbn [bind]. eexists. split; [reflexivity|]. unfold stream_pad. rewrite BM. apply just_right; lia.
  - exists t. split; [reflexivity|]. change t with (blanks 0 ++ t) at 2. apply just_left; lia.
Qed.
Lemma format_ok : forall v w mp p x, opt_int v w -> opt_int mp p -> (forall z, w = Some z -> INT_MIN < z <= INT_MAX) -> (forall z, p = Some z -> 0 <= z <= INT_MAX) -> (forall t, x = ShownOther t -> len t <= INT_MAX) ->
  exists out, format v mp x = Ok out /\ justified (match w with Some w => w | None => 0 end) (text_of x p) out.
Proof.
  intros v w mp p x Hv Hm Hw Hp Ht. unfold format. cbv zeta.
  assert (HH : match v with Some w0 => do w1 <- toInt w0; Ok (to_int w1) | None => Ok 0 end = Ok (match w with Some w => w | None => 0 end)).
  { destruct v, w; try contradiction; [|reflexivity]. cbn in Hv. rewrite (toInt_int _ _ Hv). cbn [bind]. specialize (Hw _ eq_refl). rewrite to_int_ok by lia. reflexivity. }
  rewrite HH. cbn [bind]. assert (HR : INT_MIN < match w with Some w => w | None => 0 end <= INT_MAX) by (destruct w; [apply Hw; reflexivity|unfold INT_MIN, INT_MAX; lia]).
  set (w' := match w with Some w => w | None => 0 end) in *.
  assert (HQ : match mp with Some p0 => do p1 <- toInt p0; if to_int p1 <? 0 then Err EvalError else Ok (to_int p1) | None => Ok (-1) end = Ok (match p with Some p => p | None => -1 end)).
  { destruct mp, p; try contradiction; [|reflexivity]. cbn in Hm. rewrite (toInt_int _ _ Hm). cbn [bind]. specialize (Hp _ eq_refl). rewrite to_int_ok by (unfold INT_MIN, INT_MAX in *; lia). cbv zeta. destruct (Z.ltb_spec z 0); [lia|reflexivity]. }
  rewrite HQ. cbn [bind]. destruct x as [t|f|t]; cbn [text_of].
  - apply stream_ok, HR.
  - destruct p as [p|]; [|exact (stream_ok w' (f 17) HR)]. specialize (Hp p eq_refl). destruct (Z.eqb_spec p (-1)); [lia|]. apply stream_ok, HR.
  - assert (HL : len (cut_off p t) <= INT_MAX) by (pose proof (cut_len p t); specialize (Ht t eq_refl); lia).
    destruct p as [p|]; [|exact (pad_ok w' t HR HL)]. specialize (Hp p eq_refl). destruct (Z.leb_spec 0 p); [|lia]. cbn [andb]. destruct (Z.ltb_spec p (len t)).
    + exact (pad_ok w' (cut_off (Some p) t) HR HL).
    + assert (HC : cut_off (Some p) t = t) by (cbn [cut_off]; apply firstn_all2; unfold len in *; lia). rewrite HC in *. exact (pad_ok w' t HR HL).
Qed.
Lemma format_negative : forall v w mp p x, opt_int v w -> is_int mp p -> INT_MIN <= p < 0 -> format v (Some mp) x = Err EvalError.
Proof.
  intros v w mp p x Hv Hm Hp. unfold format.
  assert (exists y, match v with Some w0 => do w1 <- toInt w0; Ok (to_int w1) | None => Ok 0 end = Ok y) as [y ->].
  { destruct v, w; try contradiction; [|eauto]. cbn in Hv. rewrite (toInt_int _ _ Hv). cbn [bind]. eauto. }
  cbn [bind]. rewrite (toInt_int _ _ Hm). cbn [bind]. rewrite to_int_ok by (unfold INT_MIN, INT_MAX in *; lia). cbv zeta. destruct (Z.ltb_spec p 0); [reflexivity|lia].
Qed.
