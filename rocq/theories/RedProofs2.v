(** Proofs of C77, continued: products, failing elements, truth values, index sets. *)
Require Import ZArith List Bool Lia ZifyBool.
From Verif Require Import Base LitProofs IntValModel IntValSpec IntValProofs IntValPropProofs SetModel SetSpec SetProofs SetPropProofs ArrModel ArrSpec ArrProofs AccessProofs BarrModel BarrSpec BarrProofs RedModel RedSpec RedProofs.
Import ListNotations.
Open Scope Z_scope.
Ltac Zify.zify_post_hook ::= idtac.
Notation card := ArrSpec.card.

Section R.
Variable E : Type.
Variable eqb : E -> E -> bool.
Variable same : E -> E -> Prop.
Hypothesis same_refl : forall e, same e e.
Hypothesis same_sym : forall a b, same a b -> same b a.
Hypothesis same_trans : forall a b c, same a b -> same b c -> same a c.
Hypothesis eqb_same : forall a b, eqb a b = true -> same a b.
Notation SZ := (size_len E eqb same same_refl same_sym same_trans eqb_same).
Notation RD := (int_read E eqb same same_refl same_sym same_trans eqb_same).

Section Int.
Variable ev_int : E -> res IntVal.
Hypothesis ev_same : respects same ev_int.
Lemma fails_head : forall e l k x, fails_at ev_int (e :: l) k x -> k = O /\ ev_int e = Err x \/ exists k' v, k = S k' /\ ev_int e = Ok v /\ fails_at ev_int l k' x.
Proof using Type.
  intros e l k x [(e' & He & Hx) Hb]. destruct k as [|k]; [left|right].
  - cbn in He. injection He as ->. auto.
  - destruct (Hb O e ltac:(lia) eq_refl) as [v Hv]. exists k, v. repeat split; auto; [exists e'; auto|]. intros j e0 Hj He0. apply (Hb (S j) e0); [lia|exact He0].
Qed.
Lemma fails_nonempty : forall el k x, fails_at ev_int el k x -> exists e l, el = e :: l.
Proof using Type. intros [|e l] k x [(e' & He & _) _]; [destruct k; discriminate|eauto]. Qed.
Lemma int_min_fails : forall a sh el k x, built eqb a sh el -> fails_at ev_int el k x -> int_min ev_int a = Err x.
Proof using All.
  intros a sh el k x HB HF. destruct (fails_nonempty _ _ _ HF) as (e & l & ->). unfold int_min. rewrite (SZ a sh _ HB). cbn [bind].
  replace (len (e :: l) =? 0) with false by (unfold len; cbn [length]; lia).
  change (int_at ev_int a 0) with (int_at ev_int a (Z.of_nat 0)). rewrite (RD ev_int ev_same a sh (e :: l) HB 0 e eq_refl).
  destruct (fails_head _ _ _ _ HF) as [(_ & ->)|(k' & v & _ & -> & HF')]; [reflexivity|]. cbn [bind].
  change 1 with (Z.of_nat 1) at 2. rewrite (min_as_fold E eqb same same_refl same_sym same_trans eqb_same ev_int ev_same a sh (e :: l) HB) by (unfold len; cbn [length]; lia). cbn [skipn].
  eapply fold_fails; [|exact HF']. eauto.
Qed.
Lemma int_max_fails : forall a sh el k x, built eqb a sh el -> fails_at ev_int el k x -> int_max ev_int a = Err x.
Proof using All.
  intros a sh el k x HB HF. destruct (fails_nonempty _ _ _ HF) as (e & l & ->). unfold int_max. rewrite (SZ a sh _ HB). cbn [bind].
  replace (len (e :: l) =? 0) with false by (unfold len; cbn [length]; lia).
  change (int_at ev_int a 0) with (int_at ev_int a (Z.of_nat 0)). rewrite (RD ev_int ev_same a sh (e :: l) HB 0 e eq_refl).
  destruct (fails_head _ _ _ _ HF) as [(_ & ->)|(k' & v & _ & -> & HF')]; [reflexivity|]. cbn [bind].
  change 1 with (Z.of_nat 1) at 2. rewrite (max_as_fold E eqb same same_refl same_sym same_trans eqb_same ev_int ev_same a sh (e :: l) HB) by (unfold len; cbn [length]; lia). cbn [skipn].
  eapply fold_fails; [|exact HF']. eauto.
Qed.
Lemma arg_min_fails : forall a sh el k x, built eqb a sh el -> fails_at ev_int el k x -> arg_min_int ev_int a = Err x.
Proof using All.
  intros a sh el k x HB HF. destruct (fails_nonempty _ _ _ HF) as (e & l & ->). unfold arg_min_int. rewrite (SZ a sh _ HB). cbn [bind].
  replace (len (e :: l) =? 0) with false by (unfold len; cbn [length]; lia).
  change (int_at ev_int a 0) with (int_at ev_int a (Z.of_nat 0)). rewrite (RD ev_int ev_same a sh (e :: l) HB 0 e eq_refl).
  destruct (fails_head _ _ _ _ HF) as [(_ & ->)|(k' & v & _ & -> & HF')]; [reflexivity|]. cbn [bind].
  change 1 with (Z.of_nat 1) at 2. rewrite (arg_min_as_fold E eqb same same_refl same_sym same_trans eqb_same ev_int ev_same a sh (e :: l) HB) by (unfold len; cbn [length]; lia). cbn [skipn].
  erewrite fold_fails; [reflexivity| |exact HF']. unfold pick. eauto.
Qed.
Lemma arg_max_fails : forall a sh el k x, built eqb a sh el -> fails_at ev_int el k x -> arg_max_int ev_int a = Err x.
Proof using All.
  intros a sh el k x HB HF. destruct (fails_nonempty _ _ _ HF) as (e & l & ->). unfold arg_max_int. rewrite (SZ a sh _ HB). cbn [bind].
  replace (len (e :: l) =? 0) with false by (unfold len; cbn [length]; lia).
  change (int_at ev_int a 0) with (int_at ev_int a (Z.of_nat 0)). rewrite (RD ev_int ev_same a sh (e :: l) HB 0 e eq_refl).
  destruct (fails_head _ _ _ _ HF) as [(_ & ->)|(k' & v & _ & -> & HF')]; [reflexivity|]. cbn [bind].
  change 1 with (Z.of_nat 1) at 2. rewrite (arg_max_as_fold E eqb same same_refl same_sym same_trans eqb_same ev_int ev_same a sh (e :: l) HB) by (unfold len; cbn [length]; lia). cbn [skipn].
  erewrite fold_fails; [reflexivity| |exact HF']. unfold pick. eauto.
Qed.

(** ** Products *)
Definition small (z : Z) : Prop := Z.abs z <= LLONG_MAX.
Lemma mul_case : forall m s v x, is_int m s -> is_int v x -> small s -> x <> LLONG_MIN ->
  (small (s * x) /\ exists r, mul_assign m v = Ok r /\ is_int r (s * x)) \/ (~ small (s * x) /\ mul_assign m v = Err ArithmeticError).
Proof using Type.
  intros m s v x Hm Hv Hs Hx. destruct (is_int_eq _ _ Hm) as [-> Fm]. destruct (is_int_eq _ _ Hv) as [-> Fv].
  unfold mul_assign, finite2. cbn [ofZ isFinite iv_inf iv_v negb andb].
  rewrite safeMult_spec; [|assumption|assumption|unfold small, LLONG_MIN, LLONG_MAX in *; lia|assumption].
  unfold small. destruct (Z.leb_spec (Z.abs (s * x)) LLONG_MAX) as [H|H]; [left|right].
  - split; [assumption|]. exists (ofZ (s * x)). split; [reflexivity|]. apply int_of_Z. unfold fits64, LLONG_MIN, LLONG_MAX in *. lia.
  - split; [lia|reflexivity].
Qed.
Lemma product_fold : forall l zs i m s, ints ev_int l (map Fin zs) -> is_int m s -> ~ In LLONG_MIN zs ->
  (forall k, small (s * zproduct (firstn k zs))) -> exists r, foldE E ev_int (fun s x _ => mul_assign s x) l i m = Ok r /\ is_int r (s * zproduct zs).
Proof using Type.
  induction l as [|e l IH]; intros zs i m s HI Hm Hmin Hf; destruct zs as [|z zs]; inversion HI as [|? y ? ys (v & Hv & Hd) HI']; subst; cbn [foldE].
  - exists m. split; [reflexivity|]. cbn [zproduct fold_right]. rewrite Z.mul_1_r. assumption.
  - rewrite Hv. cbn [bind]. assert (Hs : small s) by (specialize (Hf O); cbn [firstn zproduct fold_right] in Hf; rewrite Z.mul_1_r in Hf; exact Hf).
    destruct (mul_case m s v z Hm Hd Hs) as [(Hz & r & Hr & Hi)|(Hn & _)].
    + intros ->. apply Hmin. left; reflexivity.
    + rewrite Hr. cbn [bind]. destruct (IH zs (i + 1) r (s * z) HI' Hi) as (r' & HF & Hr').
      { intros H. apply Hmin. right; exact H. }
      { intros k. specialize (Hf (S k)). cbn [firstn zproduct fold_right] in Hf. fold (zproduct (firstn k zs)) in Hf. rewrite <- Z.mul_assoc. exact Hf. }
      exists r'. split; [exact HF|]. cbn [zproduct fold_right]. fold (zproduct zs). rewrite Z.mul_assoc. exact Hr'.
    + exfalso. apply Hn. specialize (Hf 1%nat). cbn [firstn zproduct fold_right] in Hf. rewrite Z.mul_1_r in Hf. exact Hf.
Qed.
Lemma product_fold_bad : forall l xs i m s, ints ev_int l xs -> is_int m s -> small s -> ~ In (Fin LLONG_MIN) xs ->
  (exists k zs, firstn k xs = map Fin zs /\ ~ small (s * zproduct zs)) \/ (exists x, In x xs /\ forall z, x <> Fin z) -> foldE E ev_int (fun s x _ => mul_assign s x) l i m = Err ArithmeticError.
Proof using Type.
  induction l as [|e l IH]; intros xs i m s HI Hm Hs Hmin Hbad; inversion HI as [|? y ? ys (v & Hv & Hd) HI']; subst; cbn [foldE].
  - exfalso. destruct Hbad as [(k & zs & He & Hn)|(x & [] & _)]. rewrite firstn_nil in He. destruct zs; [|discriminate]. apply Hn. cbn [zproduct fold_right]. rewrite Z.mul_1_r. exact Hs.
  - rewrite Hv. cbn [bind]. destruct y as [|z|].
    1,3: unfold mul_assign, finite2; replace (isFinite v) with false; [destruct (isFinite m); reflexivity|];
      unfold denote in Hd; unfold isFinite; destruct (iv_inf v); [reflexivity|]; destruct ((LLONG_MIN <=? iv_v v) && (iv_v v <=? LLONG_MAX)); discriminate.
    destruct (mul_case m s v z Hm Hd Hs) as [(Hz & r & Hr & Hi)|(Hn & Hx)]; [|  |rewrite Hx; reflexivity].
    { intros ->. apply Hmin. left; reflexivity. }
    rewrite Hr. cbn [bind]. apply (IH ys (i + 1) r (s * z) HI' Hi Hz).
    { intros H. apply Hmin. right; exact H. }
    destruct Hbad as [(k & zs & He & Hn)|(x & [<-|Hx] & Hinf)].
    + left. destruct k as [|k]; cbn [firstn] in He.
      * destruct zs; [|discriminate]. exfalso. apply Hn. cbn [zproduct fold_right]. rewrite Z.mul_1_r. exact Hs.
      * destruct zs as [|z' zs]; [discriminate|]. cbn [map] in He. injection He as <- He. exists k, zs. split; [exact He|]. cbn [zproduct fold_right] in Hn. fold (zproduct zs) in Hn. rewrite <- Z.mul_assoc. exact Hn.
    + exfalso. apply (Hinf z). reflexivity.
    + right. eauto.
Qed.
Lemma product_start : forall a sh el, built eqb a sh el -> product_int ev_int a = foldE E ev_int (fun s x _ => mul_assign s x) el 0 (ofZ 1).
Proof using All.
  intros a sh el HB. unfold product_int. rewrite (SZ a sh el HB). cbn [bind]. destruct el as [|e l]; [reflexivity|].
  replace (len (e :: l) =? 0) with false by (unfold len; cbn [length]; lia).
  rewrite (product_as_fold E eqb same same_refl same_sym same_trans eqb_same ev_int ev_same a sh (e :: l) HB (Z.to_nat (len (e :: l))) 0) by (unfold len; lia). reflexivity.
Qed.
Lemma product_ok : forall a sh el zs, built eqb a sh el -> ints ev_int el (map Fin zs) -> ~ In LLONG_MIN zs -> (forall k, Z.abs (zproduct (firstn k zs)) <= LLONG_MAX) ->
  exists r, product_int ev_int a = Ok r /\ is_int r (zproduct zs).
Proof using All.
  intros a sh el zs HB HI Hm Hf. rewrite (product_start a sh el HB). replace (zproduct zs) with (1 * zproduct zs) by lia. apply (product_fold el zs 0 (ofZ 1) 1 HI eq_refl Hm).
  intros k. rewrite Z.mul_1_l. apply Hf.
Qed.
Lemma product_bad : forall a sh el xs, built eqb a sh el -> ints ev_int el xs -> ~ In (Fin LLONG_MIN) xs ->
  (exists k zs, firstn k xs = map Fin zs /\ LLONG_MAX < Z.abs (zproduct zs)) \/ (exists x, In x xs /\ forall z, x <> Fin z) -> product_int ev_int a = Err ArithmeticError.
Proof using All.
  intros a sh el xs HB HI Hm Hf. rewrite (product_start a sh el HB). apply (product_fold_bad el xs 0 (ofZ 1) 1 HI eq_refl); [vm_compute; discriminate|assumption|].
  destruct Hf as [(k & zs & He & Hn)|Hf]; [left|right; exact Hf]. exists k, zs. split; [exact He|]. rewrite Z.mul_1_l. unfold small. lia.
Qed.
End Int.

(** ** Truth values *)
Section Bool.
Variable ev_bool : E -> res bool.
Hypothesis ev_same : respects same ev_bool.
Lemma bool_read : forall a sh el i e, built eqb a sh el -> nth_error el i = Some e -> bool_at ev_bool a (Z.of_nat i) = ev_bool e.
Proof using All. intros. unfold bool_at. eapply (read_ev E eqb same same_refl same_sym same_trans eqb_same); eassumption. Qed.
(** what the loops from the last element to the first do on the list of elements *)
Fixpoint scan_back (stop : bool) (l : list E) : res (option nat) :=
  match l with
  | [] => Ok None
  | e :: l => do r <- scan_back stop l;
      match r with Some k => Ok (Some (S k)) | None => do b <- ev_bool e; if Bool.eqb b stop then Ok (Some O) else Ok None end
  end.
Lemma scan_snoc : forall stop l e, scan_back stop (l ++ [e]) = do b <- ev_bool e; if Bool.eqb b stop then Ok (Some (length l)) else scan_back stop l.
Proof using Type.
  induction l as [|e0 l IH]; intros e; cbn [app scan_back length bind]; [destruct (ev_bool e) as [b| |]; reflexivity|].
  rewrite IH. destruct (ev_bool e) as [b| |]; cbn [bind]; try reflexivity. destruct (Bool.eqb b stop); reflexivity.
Qed.
Definition found (stop : bool) (l : list E) : res bool := do r <- scan_back stop l; Ok (match r with Some _ => true | None => false end).
Lemma found_snoc : forall stop l e, found stop (l ++ [e]) = do b <- ev_bool e; if Bool.eqb b stop then Ok true else found stop l.
Proof using Type.
  intros. unfold found. rewrite scan_snoc. destruct (ev_bool e) as [b| |]; cbn [bind]; try reflexivity. destruct (Bool.eqb b stop); reflexivity.
Qed.
Lemma forall_as_scan : forall a sh el n, built eqb a sh el -> (n <= length el)%nat ->
  forall_loop E ev_bool a n = do b <- found false (firstn n el); Ok (negb b).
Proof using All.
  intros a sh el n HB. induction n as [|n IH]; intros Hn; cbn [forall_loop]; [reflexivity|].
  destruct (nth_error el n) as [e|] eqn:He; [|apply nth_error_None in He; lia].
  rewrite (bool_read a sh el n e HB He), (firstn_S _ _ _ _ He), found_snoc. destruct (ev_bool e) as [[|]| |]; cbn [bind negb Bool.eqb]; try reflexivity. apply IH. lia.
Qed.
Lemma exists_as_scan : forall a sh el n, built eqb a sh el -> (n <= length el)%nat -> exists_loop E ev_bool a n = found true (firstn n el).
Proof using All.
  intros a sh el n HB. induction n as [|n IH]; intros Hn; cbn [exists_loop]; [reflexivity|].
  destruct (nth_error el n) as [e|] eqn:He; [|apply nth_error_None in He; lia].
  rewrite (bool_read a sh el n e HB He), (firstn_S _ _ _ _ He), found_snoc. destruct (ev_bool e) as [[|]| |]; cbn [bind negb Bool.eqb]; try reflexivity. apply IH. lia.
Qed.
Lemma some_false_as_scan : forall a sh el n, built eqb a sh el -> (n <= length el)%nat -> some_false E ev_bool a n = found false (firstn n el).
Proof using All.
  intros a sh el n HB. induction n as [|n IH]; intros Hn; cbn [some_false]; [reflexivity|].
  destruct (nth_error el n) as [e|] eqn:He; [|apply nth_error_None in He; lia].
  rewrite (bool_read a sh el n e HB He), (firstn_S _ _ _ _ He), found_snoc. destruct (ev_bool e) as [[|]| |]; cbn [bind negb Bool.eqb]; try reflexivity. apply IH. lia.
Qed.
Lemma found_none : forall stop l, (forall e, In e l -> ev_bool e = Ok (negb stop)) -> scan_back stop l = Ok None.
Proof using Type.
  induction l as [|e l IH]; intros H; cbn [scan_back]; [reflexivity|]. rewrite IH by (intros; apply H; right; assumption). cbn [bind].
  rewrite (H e (or_introl eq_refl)). cbn [bind]. destruct stop; reflexivity.
Qed.
Lemma found_at : forall stop l k e, nth_error l k = Some e -> ev_bool e <> Ok (negb stop) -> (forall j e, (k < j)%nat -> nth_error l j = Some e -> ev_bool e = Ok (negb stop)) ->
  found stop l = do b <- ev_bool e; Ok true.
Proof using Type.
  induction l as [|e0 l IH]; intros k e He Hne Hl; [destruct k; discriminate|].
  destruct k as [|k]; cbn in He.
  - injection He as ->. unfold found. cbn [scan_back]. rewrite found_none. 2:{ intros e0 H0. destruct (In_nth_error _ _ H0) as [j Hj]. apply (Hl (S j) e0); [lia|exact Hj]. }
    cbn [bind]. destruct (ev_bool e) as [b| |]; cbn [bind]; try reflexivity. destruct b, stop; cbn in *; try reflexivity; congruence.
  - unfold found in *. cbn [scan_back]. specialize (IH k e He Hne (fun j e' Hj => Hl (S j) e' ltac:(lia))).
    destruct (scan_back stop l) as [[n|]| |]; cbn [bind] in *; try exact IH. exfalso. destruct (ev_bool e); cbn [bind] in IH; discriminate.
Qed.
(** the last element that is not [negb stop] decides *)
Lemma last_decides : forall stop l, (forall e, In e l -> ev_bool e = Ok (negb stop)) \/
  exists k e, nth_error l k = Some e /\ ev_bool e <> Ok (negb stop) /\ forall j e, (k < j)%nat -> nth_error l j = Some e -> ev_bool e = Ok (negb stop).
Proof using Type.
  induction l as [|e l IH]; [left; intros e []|]. destruct IH as [IH|(k & e' & Hk & Hne & Hl)].
  - assert (ev_bool e = Ok (negb stop) \/ ev_bool e <> Ok (negb stop)) as [H|H].
    { destruct (ev_bool e) as [[|]| |], stop; cbn; auto; right; discriminate. }
    + left. intros x [<-|Hx]; auto.
    + right. exists O, e. repeat split; auto. intros [|j] x Hj Hx; [lia|]. apply IH. eapply nth_error_In; exact Hx.
  - right. exists (S k), e'. repeat split; auto. intros [|j] x Hj Hx; [lia|]. apply (Hl j); [lia|exact Hx].
Qed.
Lemma found_bools : forall stop l bs, bools ev_bool l bs -> found stop l = Ok (existsb (Bool.eqb stop) bs).
Proof using Type.
  intros stop l bs. revert l. induction bs as [|b bs IH] using rev_ind; intros l HB.
  - inversion HB; subst. reflexivity.
  - apply Forall2_app_inv_r in HB. destruct HB as (l1 & l2 & H1 & H2 & ->). inversion H2 as [|e ? ? ? He H3]; subst. inversion H3; subst.
    rewrite found_snoc, He. cbn [bind]. rewrite existsb_app. cbn [existsb]. rewrite orb_false_r, (IH l1 H1).
    replace (Bool.eqb b stop) with (Bool.eqb stop b) by (destruct b, stop; reflexivity). destruct (Bool.eqb stop b); [rewrite orb_true_r; reflexivity|rewrite orb_false_r; reflexivity].
Qed.
Lemma all_first : forall (l : list E), firstn (Z.to_nat (len l)) l = l.
Proof using Type. intros l. unfold len. rewrite Nat2Z.id. apply firstn_all. Qed.
Lemma le_all : forall (l : list E), (Z.to_nat (len l) <= length l)%nat.
Proof using Type. intros l. unfold len. lia. Qed.
Lemma forall_start : forall a sh el, built eqb a sh el -> forall_par ev_bool a = do b <- found false el; Ok (negb b).
Proof using All. intros a sh el HB. unfold forall_par. rewrite (SZ a sh el HB). cbn [bind]. rewrite (forall_as_scan a sh el _ HB (le_all el)), all_first. reflexivity. Qed.
Lemma exists_start : forall a sh el, built eqb a sh el -> exists_par ev_bool a = found true el.
Proof using All. intros a sh el HB. unfold exists_par. rewrite (SZ a sh el HB). cbn [bind]. rewrite (exists_as_scan a sh el _ HB (le_all el)), all_first. reflexivity. Qed.
Lemma clause_start : forall p sp pl n sn nl, built eqb p sp pl -> built eqb n sn nl ->
  clause_par ev_bool p n = do b <- found true pl; if b then Ok true else found false nl.
Proof using All.
  intros p sp pl n sn nl HP HN. unfold clause_par. rewrite (SZ p sp pl HP). cbn [bind]. rewrite (exists_as_scan p sp pl _ HP (le_all pl)), all_first.
  destruct (found true pl) as [[|]| |]; cbn [bind]; try reflexivity. rewrite (SZ n sn nl HN). cbn [bind]. rewrite (some_false_as_scan n sn nl _ HN (le_all nl)), all_first. reflexivity.
Qed.
Lemma negb_existsb : forall bs, negb (existsb (Bool.eqb false) bs) = forallb (fun b => b) bs.
Proof using Type. induction bs as [|b bs IH]; [reflexivity|]. cbn [existsb forallb]. rewrite negb_orb, IH. destruct b; reflexivity. Qed.
Lemma forall_ok : forall a sh el bs, built eqb a sh el -> bools ev_bool el bs -> forall_par ev_bool a = Ok (forallb (fun b => b) bs).
Proof using All. intros a sh el bs HB H. rewrite (forall_start a sh el HB), (found_bools false el bs H). cbn [bind]. rewrite negb_existsb. reflexivity. Qed.
Lemma exists_ok : forall a sh el bs, built eqb a sh el -> bools ev_bool el bs -> exists_par ev_bool a = Ok (existsb (fun b => b) bs).
Proof using All.
  intros a sh el bs HB H. rewrite (exists_start a sh el HB), (found_bools true el bs H). f_equal. clear. induction bs as [|b bs IH]; [reflexivity|]. cbn [existsb]. rewrite IH. destruct b; reflexivity.
Qed.
Lemma clause_ok : forall p sp pl ps n sn nl ns, built eqb p sp pl -> bools ev_bool pl ps -> built eqb n sn nl -> bools ev_bool nl ns ->
  clause_par ev_bool p n = Ok (existsb (fun b => b) ps || existsb negb ns).
Proof using All.
  intros p sp pl ps n sn nl ns HP Hp HN Hn. rewrite (clause_start p sp pl n sn nl HP HN), (found_bools true pl ps Hp), (found_bools false nl ns Hn). cbn [bind].
  replace (existsb (Bool.eqb true) ps) with (existsb (fun b => b) ps) by (clear; induction ps as [|b ps IH]; [reflexivity|]; cbn [existsb]; rewrite IH; destruct b; reflexivity).
  replace (existsb (Bool.eqb false) ns) with (existsb negb ns) by (clear; induction ns as [|b ns IH]; [reflexivity|]; cbn [existsb]; rewrite IH; destruct b; reflexivity).
  destruct (existsb (fun b => b) ps); reflexivity.
Qed.
(** the last element that is not true decides, whatever comes before it *)
Lemma forall_last : forall a sh el k e, built eqb a sh el -> nth_error el k = Some e -> ev_bool e <> Ok true ->
  (forall j e, (k < j)%nat -> nth_error el j = Some e -> ev_bool e = Ok true) -> forall_par ev_bool a = ev_bool e.
Proof using All.
  intros a sh el k e HB He Hne Hl. rewrite (forall_start a sh el HB), (found_at false el k e He Hne Hl). destruct (ev_bool e) as [[|]| |]; try reflexivity. congruence.
Qed.
Lemma exists_last : forall a sh el k e, built eqb a sh el -> nth_error el k = Some e -> ev_bool e <> Ok false ->
  (forall j e, (k < j)%nat -> nth_error el j = Some e -> ev_bool e = Ok false) -> exists_par ev_bool a = ev_bool e.
Proof using All.
  intros a sh el k e HB He Hne Hl. rewrite (exists_start a sh el HB), (found_at true el k e He Hne Hl). destruct (ev_bool e) as [[|]| |]; try reflexivity. congruence.
Qed.
Definition trues (bs : list bool) : Z := zsum (map Z.b2z bs).
Lemma trues_snoc : forall bs b, trues (bs ++ [b]) = trues bs + Z.b2z b.
Proof using Type. intros bs b. unfold trues. induction bs as [|c bs IH]; cbn [app map zsum fold_right] in *; [lia|]. unfold zsum in IH. rewrite IH. lia. Qed.
Lemma trues_range : forall bs, 0 <= trues bs <= len bs.
Proof using Type. unfold trues, len. induction bs as [|c bs IH]; cbn [map zsum fold_right length] in *; [lia|]. unfold zsum in IH. destruct c; cbn [Z.b2z]; lia. Qed.
Lemma count_ok : forall a sh el, built eqb a sh el -> forall bs n c, bools ev_bool (firstn n el) bs -> (n <= length el)%nat -> 0 <= c -> c + Z.of_nat n <= INT_MAX ->
  count_loop E ev_bool a n c = Ok (c + trues bs).
Proof using All.
  intros a sh el HB bs n. revert bs. induction n as [|n IH]; intros bs c Hb Hn Hc Hi; cbn [count_loop].
  - inversion Hb; subst. cbn. f_equal. lia.
  - destruct (nth_error el n) as [e|] eqn:He; [|apply nth_error_None in He; lia].
    rewrite (firstn_S _ _ _ _ He) in Hb. apply Forall2_app_inv_l in Hb. destruct Hb as (b1 & b2 & H1 & H2 & ->). inversion H2 as [|? b ? ? Hb H3]; subst. inversion H3; subst.
    rewrite (bool_read a sh el n e HB He), Hb. cbn [bind]. rewrite i32_ok by (destruct b; cbn [Z.b2z]; unfold INT_MIN, INT_MAX in *; lia). cbn [bind].
    rewrite (IH b1) by (try assumption; destruct b; cbn [Z.b2z]; lia). rewrite trues_snoc. f_equal. lia.
Qed.
Lemma xor_parity : forall bs, xor_all bs = Z.odd (trues bs).
Proof using Type.
  unfold trues. induction bs as [|b bs IH]; [reflexivity|]. cbn [xor_all map zsum fold_right]. change (fold_right xorb false bs) with (xor_all bs). rewrite IH.
  rewrite Z.odd_add. destruct b; reflexivity.
Qed.
Lemma xorall_ok : forall a sh el bs, built eqb a sh el -> bools ev_bool el bs -> xorall_par ev_bool a = Ok (xor_all bs) /\ iffall_par ev_bool a = Ok (negb (xor_all bs)).
Proof using All.
  intros a sh el bs HB H. unfold xorall_par, iffall_par. rewrite (SZ a sh el HB). cbn [bind].
  destruct (built_facts E eqb same same_refl same_sym same_trans eqb_same a sh _ HB) as (_ & _ & Hc & (_ & _ & Hm) & _).
  rewrite (count_ok a sh el HB bs (Z.to_nat (len el)) 0); [|rewrite all_first; exact H|apply le_all|lia|unfold len in *; lia].
  cbn [bind Z.add]. rewrite xor_parity. pose proof (trues_range bs) as Hr. rewrite Z.rem_mod_nonneg by lia. rewrite Zmod_odd. destruct (Z.odd (trues bs)); split; reflexivity.
Qed.
(** arg_min and arg_max of truth values *)
Lemma arg_bool_loop_ok : forall want a r el bs, built eqb a [r] el -> bools ev_bool el bs -> forall n i, (i + n = length el)%nat ->
  (forall j b, (j < i)%nat -> nth_error bs j = Some b -> b <> want) ->
  (exists k, arg_bool_loop E ev_bool want a n (Z.of_nat i) = Ok (ofZ (fst r + Z.of_nat k)) /\ first_pos (eq want) bs k) \/
  (arg_bool_loop E ev_bool want a n (Z.of_nat i) = Ok (ofZ (fst r)) /\ ~ In want bs).
Proof using All.
  intros want a r el bs HB Hb n. destruct (low_end E eqb same same_refl same_sym same_trans eqb_same a r _ HB) as (Hlo & Hr & Hw).
  destruct (built_facts E eqb same same_refl same_sym same_trans eqb_same a [r] _ HB) as (_ & _ & Hc & (_ & _ & Hm) & _).
  assert (HL : length el = length bs) by (eapply Forall2_length; exact Hb).
  induction n as [|n IH]; intros i Hi Hp; cbn [arg_bool_loop].
  - right. rewrite Hlo. split; [reflexivity|]. intros H. destruct (In_nth_error _ _ H) as [j Hj]. apply (Hp j want); [|exact Hj|reflexivity].
    assert (j < length bs)%nat by (apply nth_error_Some; congruence). lia.
  - destruct (nth_error el i) as [e|] eqn:He; [|apply nth_error_None in He; lia].
    assert (exists b, nth_error bs i = Some b /\ ev_bool e = Ok b) as (b & Hbi & Hev).
    { clear - Hb He. revert i He. induction Hb as [|e0 b0 l0 bs0 H0 HF IHF]; intros [|i] He; cbn in *; try discriminate; [injection He as ->; eauto | apply IHF, He]. }
    rewrite (bool_read a [r] el i e HB He), Hev. cbn [bind]. destruct (Bool.eqb b want) eqn:Hq.
    + apply eqb_prop in Hq. subst b. left. rewrite Hlo. cbn [bind]. exists i. split.
      * apply (index_sum _ _ (len el)); [unfold len; lia|lia|assumption].
      * split; [eauto|]. intros j x Hj Hx Hn'. apply (Hp j x Hj Hx). congruence.
    + replace (Z.of_nat i + 1) with (Z.of_nat (S i)) by lia. apply IH; [lia|]. intros j x Hj Hx. destruct (Nat.eq_dec j i) as [->|Hji]; [|apply (Hp j x ltac:(lia) Hx)].
      rewrite Hx in Hbi. injection Hbi as ->. intros ->. rewrite eqb_reflx in Hq. discriminate.
Qed.
Lemma arg_bool_ok : forall a r el bs, built eqb a [r] el -> bools ev_bool el bs -> bs <> [] ->
  (forall (want : bool) f, f = (if want then arg_max_bool ev_bool a else arg_min_bool ev_bool a) ->
   exists k, f = Ok (ofZ (fst r + Z.of_nat k)) /\ (if in_dec bool_dec want bs then first_pos (eq want) bs k else k = O)).
Proof using All.
  intros a r el bs HB Hb Hne want f ->.
  assert (HL : length el = length bs) by (eapply Forall2_length; exact Hb).
  assert (Hs : len el =? 0 = false) by (unfold len; destruct bs; [congruence|cbn [length] in HL; lia]).
  assert (HX : (if want then arg_max_bool ev_bool a else arg_min_bool ev_bool a) = arg_bool_loop E ev_bool want a (Z.to_nat (len el)) 0).
  { unfold arg_max_bool, arg_min_bool. rewrite (SZ a [r] el HB). cbn [bind]. rewrite Hs. destruct want; reflexivity. }
  rewrite HX. change 0 with (Z.of_nat 0). destruct (arg_bool_loop_ok want a r el bs HB Hb (Z.to_nat (len el)) 0) as [(k & Hk & Hf)|(Hk & Hn)].
  - unfold len. lia.
  - intros j b Hj. lia.
  - exists k. split; [exact Hk|]. destruct (in_dec bool_dec want bs) as [_|N]; [exact Hf|]. exfalso. apply N. destruct Hf as [(x & Hx & ->) _]. eapply nth_error_In; exact Hx.
  - exists O. split; [rewrite Z.add_0_r; exact Hk|]. destruct (in_dec bool_dec want bs); [contradiction|reflexivity].
Qed.
End Bool.

(** ** Index sets *)
Lemma index_set_ok : forall a sh el k r, built eqb a sh el -> nth_error sh k = Some r ->
  exists s, index_set a (Z.of_nat k + 1) = Ok s /\ nf s /\ forall z, elem z s <-> fst r <= z <= snd r.
Proof using All.
  intros a sh el k r HB Hk. destruct (built_facts E eqb same same_refl same_sym same_trans eqb_same a sh _ HB) as (_ & Hd & _ & (_ & Hf & _) & Hr).
  destruct (Hr k r Hk) as [H1 H2]. unfold index_set. assert (k < length sh)%nat by (apply nth_error_Some; congruence).
  replace (dims a <? Z.of_nat k + 1) with false by (unfold len in Hd; lia). replace (Z.of_nat k + 1 - 1) with (Z.of_nat k) by lia. rewrite H1, H2. cbn [bind].
  eexists. split; [reflexivity|]. assert (HO : range_ok r) by (eapply Forall_forall; [exact Hf|eapply nth_error_In; exact Hk]). destruct HO as (Ha & Hb & Hc).
  assert (F1 : is_int (ofZ (fst r)) (fst r)) by (apply int_of_Z; unfold wid, fits64, LLONG_MIN, LLONG_MAX, INT_MIN, INT_MAX in *; lia).
  assert (F2 : is_int (ofZ (snd r)) (snd r)) by (apply int_of_Z; unfold wid, fits64, LLONG_MIN, LLONG_MAX, INT_MIN, INT_MAX in *; lia).
  unfold set_interval. destruct (C02_comparisons_l (ofZ (fst r)) (ofZ (snd r)) _ _ F1 F2) as (_ & _ & _ & Hg & _).
  destruct (iv_gt (ofZ (fst r)) (ofZ (snd r))) eqn:G.
  - destruct Hg as [Hg _]. destruct (Hg eq_refl) as [Hle Hne]. cbn [ext_le] in Hle. assert (snd r <> fst r) by congruence.
    split; [constructor|]. intros z. split; [intros (x & y & [] & _)|lia].
  - assert (fst r <= snd r).
    { destruct (Z.le_gt_cases (fst r) (snd r)) as [L|L]; [exact L|]. destruct Hg as [_ Hg]. assert (false = true); [|discriminate]. apply Hg. split; [cbn; lia|intros X; injection X; lia]. }
    assert (HB' : forall z, between z (ofZ (fst r)) (ofZ (snd r)) <-> fst r <= z <= snd r).
    { intros z. split.
      - intros (x & y & Hx & Hy & L1 & L2). unfold is_int in *. rewrite F1 in Hx. rewrite F2 in Hy. injection Hx as <-. injection Hy as <-. cbn in *. lia.
      - intros Hz. exists (Fin (fst r)), (Fin (snd r)). repeat split; auto; cbn; lia. }
    split.
    + constructor. exists (fst r). cbn [fst snd]. apply HB'. lia.
    + intros z. rewrite <- HB'. split.
      * intros (x & y & [Hin|[]] & Hz). injection Hin as <- <-. exact Hz.
      * intros Hz. exists (ofZ (fst r)), (ofZ (snd r)). split; [left; reflexivity|exact Hz].
Qed.
Lemma index_set_bad : forall a sh el i, built eqb a sh el -> len sh < i -> index_set a i = Err EvalError.
Proof using All.
  intros a sh el i HB Hi. destruct (built_facts E eqb same same_refl same_sym same_trans eqb_same a sh _ HB) as (_ & Hd & _).
  unfold index_set. replace (dims a <? i) with true by lia. reflexivity.
Qed.
Lemma agree_ok : forall a0 sh0 el0 a1 sh1 el1, built eqb a0 sh0 el0 -> built eqb a1 sh1 el1 -> forall n i, (i + n = length sh0)%nat -> length sh0 = length sh1 ->
  (forall k r s, (k < i)%nat -> nth_error sh0 k = Some r -> nth_error sh1 k = Some s -> same_range r s) ->
  exists b, agree_loop E a0 a1 n (Z.of_nat i + 1) = Ok b /\ (b = true <-> Forall2 same_range sh0 sh1).
Proof using All.
  intros a0 sh0 el0 a1 sh1 el1 HB0 HB1. induction n as [|n IH]; intros i Hi HL Hp; cbn [agree_loop].
  - exists true. split; [reflexivity|]. split; [intros _|reflexivity]. assert (Hq : forall k r s, nth_error sh0 k = Some r -> nth_error sh1 k = Some s -> same_range r s).
    { intros k r s Hr Hs. apply (Hp k r s); auto. assert (k < length sh0)%nat by (apply nth_error_Some; congruence). lia. }
    clear - HL Hq. revert sh1 HL Hq. induction sh0 as [|r sh0 IH]; intros [|s sh1] HL Hq; try discriminate; constructor.
    + apply (Hq O); reflexivity.
    + apply IH; [cbn in HL; lia|]. intros k. apply (Hq (S k)).
  - destruct (nth_error sh0 i) as [r|] eqn:Hr; [|apply nth_error_None in Hr; lia].
    destruct (nth_error sh1 i) as [s|] eqn:Hs; [|apply nth_error_None in Hs; lia].
    destruct (index_set_ok a0 sh0 el0 i r HB0 Hr) as (s0 & -> & N0 & E0). destruct (index_set_ok a1 sh1 el1 i s HB1 Hs) as (s1 & -> & N1 & E1). cbn [bind].
    destruct (C07_equal_l s0 s1 N0 N1) as [C1 C2]. destruct (set_equal s0 s1) eqn:Q; cbn [negb].
    + replace (Z.of_nat i + 1 + 1) with (Z.of_nat (S i) + 1) by lia. apply IH; [lia|assumption|]. intros k r' s' Hk Hr' Hs'. destruct (Nat.eq_dec k i) as [->|Hki]; [|apply (Hp k); auto; lia].
      rewrite Hr in Hr'. rewrite Hs in Hs'. injection Hr' as <-. injection Hs' as <-. intros z. rewrite <- E0, <- E1. apply C1. reflexivity.
    + exists false. split; [reflexivity|]. split; [discriminate|]. intros HF. exfalso. assert (false = true); [|discriminate]. apply C2. intros z. rewrite E0, E1.
      assert (HS : same_range r s); [|exact (HS z)]. clear - HF Hr Hs. revert i Hr Hs. induction HF as [|x y l m Hxy HF IH]; intros [|i] Hr Hs; cbn in *; try discriminate; [injection Hr as <-; injection Hs as <-; exact Hxy|eauto].
Qed.
Lemma index_sets_agree_ok : forall a0 sh0 el0 a1 sh1 el1, built eqb a0 sh0 el0 -> built eqb a1 sh1 el1 ->
  exists b, index_sets_agree a0 a1 = Ok b /\ (b = true <-> Forall2 same_range sh0 sh1).
Proof using All.
  intros a0 sh0 el0 a1 sh1 el1 HB0 HB1. unfold index_sets_agree.
  destruct (built_facts E eqb same same_refl same_sym same_trans eqb_same a0 sh0 _ HB0) as (_ & H0 & _). destruct (built_facts E eqb same same_refl same_sym same_trans eqb_same a1 sh1 _ HB1) as (_ & H1 & _).
  rewrite H0, H1. destruct (Z.eqb_spec (len sh0) (len sh1)) as [Q|Q]; cbn [negb].
  - unfold len in *. change 1 with (Z.of_nat 0 + 1). apply (agree_ok a0 sh0 el0 a1 sh1 el1 HB0 HB1); try lia.
  - exists false. split; [reflexivity|]. split; [discriminate|]. intros HF. exfalso. apply Q. unfold len. rewrite (Forall2_length HF). reflexivity.
Qed.
(** an identifier whose value has the index sets of its declaration *)
Lemma index_set_id_ok : forall a sh el ds k r, built eqb a sh el -> nth_error sh k = Some r ->
  (match ds with [TypeVar] => True | _ => match nth_error ds k with
     | None => False
     | Some (Declared s) => nf s /\ ((exists lo hi rest, s = (lo, hi) :: rest /\ denote hi = Some PInf) \/ forall z, elem z s <-> fst r <= z <= snd r)
     | Some _ => True end end) ->
  exists s, index_set_id ds a (Z.of_nat k + 1) = Ok s /\ nf s /\ forall z, elem z s <-> fst r <= z <= snd r.
Proof using All.
  intros a sh el ds k r HB Hk Hds. pose proof (index_set_ok a sh el k r HB Hk) as HX. unfold index_set_id.
  assert (HD : ds = [TypeVar] \/ (match ds with [TypeVar] => true | _ => false end = false /\ match nth_error ds k with
     | None => False
     | Some (Declared s) => nf s /\ ((exists lo hi rest, s = (lo, hi) :: rest /\ denote hi = Some PInf) \/ forall z, elem z s <-> fst r <= z <= snd r)
     | Some _ => True end)).
  { destruct ds as [|[| |s] [|d ds]]; auto. }
  destruct HD as [->|(-> & HD)]; [exact HX|]. destruct (nth_error ds k) as [d|] eqn:Hd; [|contradiction].
  assert (k < length ds)%nat by (apply nth_error_Some; congruence).
  replace (len ds >=? Z.of_nat k + 1) with true by (unfold len; lia). replace (len ds <? Z.of_nat k + 1) with false by (unfold len; lia).
  replace (at_ ds (Z.of_nat k + 1 - 1)) with (Ok d).
  2:{ unfold at_. replace (Z.of_nat k + 1 - 1) with (Z.of_nat k) by lia. rewrite Nat2Z.id, Hd. replace (Z.of_nat k <? 0) with false by lia. reflexivity. }
  cbn [bind]. destruct d as [| |s]; cbn [bind]; [exact HX|exact HX|]. destruct HD as [N HD]. destruct s as [|[lo hi] rest].
  - destruct HD as [(lo & hi & rest & Hx & _)|HD]; [discriminate|]. exists []. auto.
  - destruct HD as [(lo' & hi' & rest' & Hx & Hp)|HD].
    + injection Hx as <- <- <-. replace (isPlusInfinity hi) with true; [exact HX|]. unfold denote in Hp. unfold isPlusInfinity. destruct (iv_inf hi).
      * destruct (iv_v hi =? 1); [reflexivity|]. destruct (iv_v hi =? -1); discriminate.
      * destruct ((LLONG_MIN <=? iv_v hi) && (iv_v hi <=? LLONG_MAX)); discriminate.
    + destruct (isPlusInfinity hi); [exact HX|]. exists ((lo, hi) :: rest). auto.
Qed.
End R.
