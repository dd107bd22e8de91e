(** Proofs about the frequency components of events. *)
From Coq Require Import Reals Lra Lia List Bool ZArith.
From Coquelicot Require Import Complex.
From Verif Require Import DftModel DftProofs WignerModel WignerSpec WignerProofs FreqModel FreqSpec.
Import ListNotations.
Open Scope R_scope.

(** ** Vectors *)
Lemma vadd_comm a b : vadd a b = vadd b a.
Proof. induction a as [|x a IH] in b |- *; destruct b as [|y b]; cbn; auto. rewrite IH. f_equal. f_equal; ring. Qed.
Lemma vadd_assoc a b c : vadd a (vadd b c) = vadd (vadd a b) c.
Proof. revert b c. induction a as [|x a IH]; intros [|y b] [|z c]; cbn; auto. rewrite IH. f_equal. f_equal; ring. Qed.
Lemma vadd_length a b : length a = length b -> length (vadd a b) = length b.
Proof. induction a as [|x a IH] in b |- *; destruct b as [|y b]; cbn; intros H; try discriminate; auto. Qed.
Lemma vadd_zero n v : length v = n -> vadd (vzero n) v = v.
Proof. intros <-. unfold vzero. induction v as [|x v IH]; cbn; auto. rewrite IH. f_equal. apply C_ext; cbn; ring. Qed.
Lemma vadd_zero_r n v : length v = n -> vadd v (vzero n) = v.
Proof. rewrite vadd_comm. apply vadd_zero. Qed.
Lemma vscale_length t v : length (vscale t v) = length v.
Proof. apply map_length. Qed.
Lemma vzero_length n : length (vzero n) = n.
Proof. apply repeat_length. Qed.
Lemma vscale_0 v : vscale 0 v = vzero (length v).
Proof. unfold vscale, vzero. induction v as [|x v IH]; cbn; auto. rewrite IH. f_equal. apply C_ext; cbn; ring. Qed.
Lemma vscale_opp t v : vscale (- t) v = map Copp (vscale t v).
Proof. unfold vscale. rewrite map_map. apply map_ext. intros z. apply C_ext; cbn; ring. Qed.
Lemma vopp_add a b : map Copp (vadd a b) = vadd (map Copp a) (map Copp b).
Proof. induction a as [|x a IH] in b |- *; destruct b as [|y b]; cbn; auto. rewrite IH. f_equal. apply C_ext; cbn; ring. Qed.
Lemma vopp_zero n : map Copp (vzero n) = vzero n.
Proof. unfold vzero. induction n; cbn; auto. rewrite IHn. f_equal. apply C_ext; cbn; ring. Qed.
Lemma nth_vadd a b i : length a = length b -> nth i (vadd a b) (RtoC 0) = (nth i a (RtoC 0) + nth i b (RtoC 0))%C.
Proof.
  induction a as [|x a IH] in b, i |- *; destruct b as [|y b]; cbn; intros H; try discriminate.
  - destruct i; apply C_ext; cbn; ring.
  - destruct i; [reflexivity|]. apply IH. lia.
Qed.

(** ** Components *)
Definition wf (c : comps) : Prop := length (r2 c) = 5%nat /\ length (r4 c) = 9%nat.
Lemma comps_ext a b : r0 a = r0 b -> r2 a = r2 b -> r4 a = r4 b -> a = b.
Proof. destruct a, b; cbn. congruence. Qed.
Lemma cadd_comm a b : cadd a b = cadd b a.
Proof. apply comps_ext; cbn; [ring|apply vadd_comm|apply vadd_comm]. Qed.
Lemma cadd_assoc a b c : cadd a (cadd b c) = cadd (cadd a b) c.
Proof. apply comps_ext; cbn; [ring|apply vadd_assoc|apply vadd_assoc]. Qed.
Lemma zero_wf : wf zero_comps.
Proof. split; reflexivity. Qed.
Lemma cadd_wf a b : wf a -> wf b -> wf (cadd a b).
Proof. intros [A1 A2] [B1 B2]. split; cbn; rewrite vadd_length; congruence. Qed.
Lemma cadd_zero a : wf a -> cadd a zero_comps = a.
Proof. intros [A1 A2]. apply comps_ext; cbn [cadd zero_comps r0 r2 r4]; [ring| |]; apply vadd_zero_r; auto. Qed.
Lemma cadd_zero_l a : wf a -> cadd zero_comps a = a.
Proof. rewrite cadd_comm. apply cadd_zero. Qed.
Lemma total_wf l : (forall c, In c l -> wf c) -> wf (total l).
Proof. induction l as [|a l IH]; cbn; intros H; [apply zero_wf|]. apply cadd_wf; auto. Qed.
Lemma total_app a b : (forall c, In c b -> wf c) -> total (a ++ b) = cadd (total a) (total b).
Proof.
  intros H. induction a as [|x a IH]; cbn; [symmetry; apply cadd_zero_l, total_wf; auto|]. fold (total (a ++ b)) (total a). rewrite IH. apply cadd_assoc.
Qed.
Lemma cneg_add a b : cneg (cadd a b) = cadd (cneg a) (cneg b).
Proof. apply comps_ext; cbn; [ring|apply vopp_add|apply vopp_add]. Qed.
Lemma cneg_zero : cneg zero_comps = zero_comps.
Proof. apply comps_ext; cbn [cneg zero_comps r0 r2 r4]; [ring|apply vopp_zero|apply vopp_zero]. Qed.
Lemma cneg_total l : cneg (total l) = total (map cneg l).
Proof. induction l; cbn; [apply cneg_zero|]. rewrite cneg_add. f_equal. auto. Qed.
Lemma cneg_wf c : wf c -> wf (cneg c).
Proof. intros [A B]. split; cbn; rewrite map_length; auto. Qed.
Lemma only0_wf x : wf (only0 x). Proof. split; reflexivity. Qed.
Lemma only2_wf v : length v = 5%nat -> wf (only2 v). Proof. intros H. split; auto. Qed.
Lemma only4_wf v : length v = 9%nat -> wf (only4 v). Proof. intros H. split; auto. Qed.
Lemma add0_only x c : wf c -> add0 x c = cadd c (only0 x).
Proof. intros [A B]. apply comps_ext; cbn [add0 cadd only0 r0 r2 r4]; auto; symmetry; apply vadd_zero_r; auto. Qed.
Lemma add2_only v c : wf c -> add2 v c = cadd c (only2 v).
Proof. intros [A B]. apply comps_ext; cbn [add2 cadd only2 r0 r2 r4]; [ring|apply vadd_comm|symmetry; apply vadd_zero_r; auto]. Qed.
Lemma add4_only v c : wf c -> add4 v c = cadd c (only4 v).
Proof. intros [A B]. apply comps_ext; cbn [add4 cadd only4 r0 r2 r4]; [ring|symmetry; apply vadd_zero_r; auto|apply vadd_comm]. Qed.

(** ** Rotation of the tensors *)
Lemma turn_length l th v : length (turn l th v) = (2 * l + 1)%nat.
Proof. destruct th as [[a b] g]. apply rotation_length. Qed.
Lemma rotate_turn l th v : rank l -> length v = (2 * l + 1)%nat -> rotate_pas l th v = turn l th v.
Proof.
  intros H L. destruct th as [[a b] g]. unfold rotate_pas, turn. destruct (Req_EM_T a 0) as [->|]; auto. destruct (Req_EM_T b 0) as [->|]; auto.
  destruct (Req_EM_T g 0) as [->|]; auto. unfold single_wigner_rotation. rewrite table_zero. symmetry. apply rotation_zero; auto.
Qed.
Lemma rank2 : rank 2. Proof. left; auto. Qed.
Lemma rank4 : rank 4. Proof. right; auto. Qed.
#[global] Hint Resolve rank2 rank4 : core.

Lemma contribution_wf f B0 s m m' c : wf (contribution f B0 s m m' c).
Proof. destruct c; cbn [contribution]; first [apply only0_wf|apply only2_wf; rewrite vscale_length; apply turn_length|apply only4_wf; rewrite vscale_length; apply turn_length]. Qed.

(** The contributions of the code are those of the specification. *)
Definition picked (E : list contrib) (fl : list bool) : list contrib := flat_map (fun cb => if snd cb : bool then [fst cb] else []) (combine E fl).
Lemma STF_c_p f m m' I : STF_cL f m' m I = (tf_c (c0p f) (c0f f) f I m m', tf_c (c2p f) (c2f f) f I m m', tf_c (c4p f) (c4f f) f I m m').
Proof. unfold STF_cL, tf_c, tf_f, STF_f, tf_p, STF_p. f_equal; [f_equal|]; ring. Qed.
Lemma pas2_eq a b a' b' : a = a' -> b = b' -> pas2 a b = pas2 a' b'. Proof. congruence. Qed.
Lemma pas4_eq a b c a' b' c' : a = a' -> b = b' -> c = c' -> pas4 a b c = pas4 a' b' c'. Proof. congruence. Qed.
Lemma shielding_spec f B0 s m m' : m <> m' ->
  FCF_shielding f (s_iso s * (- B0 * s_gamma s)) (s_zeta s * (- B0 * s_gamma s)) (s_eta s) (s_theta s) m' m =
  (r0 (contribution f B0 s m m' Shielding1_0), r2 (contribution f B0 s m m' Shielding1_2)).
Proof.
  intros D. unfold FCF_shielding. cbv zeta. destruct (Req_EM_T (STF_p m' m) 0) as [E|_]; [unfold STF_p in E; exfalso; apply D; lra|].
  unfold sSOT_shielding. rewrite rotate_turn by auto. cbn [contribution only0 only2 r0 r2]. f_equal; [unfold STF_p, tf_p; ring|].
  f_equal. f_equal. apply pas2_eq; ring.
Qed.
Lemma quad1_spec f B0 s m m' : FCF_quad1 f (s_spin s) (s_Cq s) (s_qeta s) (s_qtheta s) m' m = r2 (contribution f B0 s m m' Quad1_2).
Proof.
  unfold FCF_quad1. cbn [contribution only2 r2]. cbv zeta. assert (T : tf_d f m m' = STF_d f m' m) by (unfold tf_d, STF_d; ring). rewrite T.
  destruct (Req_EM_T (STF_d f m' m) 0) as [E|_]; [rewrite E, vscale_0, turn_length; reflexivity|].
  unfold sSOT_quad1. rewrite rotate_turn by auto. f_equal. f_equal. apply pas2_eq; unfold vq; unfold Rdiv; ring.
Qed.
Lemma quad2_spec f B0 s m m' : FCF_quad2 f (s_spin s) (- B0 * s_gamma s * 1000000) (s_Cq s) (s_qeta s) (s_qtheta s) m' m =
  (r0 (contribution f B0 s m m' Quad2_0), r2 (contribution f B0 s m m' Quad2_2), r4 (contribution f B0 s m m' Quad2_4)).
Proof.
  unfold FCF_quad2. rewrite STF_c_p. unfold sSOT_quad2. rewrite !rotate_turn by auto. cbn [contribution only0 only2 only4 r0 r2 r4].
  assert (S : vq (s_spin s) (s_Cq s) * vq (s_spin s) (s_Cq s) / (- B0 * s_gamma s * 1000000) = (3 * s_Cq s / (2 * s_spin s * (2 * s_spin s - 1))) ^ 2 / (- (B0 * s_gamma s) * 1000000)).
  { unfold vq. replace (- B0 * s_gamma s) with (- (B0 * s_gamma s)) by ring. unfold Rdiv. ring. }
  rewrite S. set (k := _ / _). clearbody k. f_equal; [f_equal|].
  - ring.
  - f_equal. f_equal. apply pas2_eq; ring.
  - f_equal. f_equal. apply pas4_eq; ring.
Qed.

Lemma picked_cons K e E b fl : (forall k, wf (K k)) ->
  total (map K (picked (e :: E) (b :: fl))) = cadd (if b then K e else zero_comps) (total (map K (picked E fl))).
Proof.
  intros H. unfold picked. cbn [combine flat_map fst snd]. destruct b; cbn [app map total fold_right]; [reflexivity|].
  rewrite cadd_zero_l; [reflexivity|]. apply total_wf. intros c Hc. apply in_map_iff in Hc. destruct Hc as [k [<- _]]. auto.
Qed.
Lemma flag_wf (b : bool) K : wf K -> wf (if b then K else zero_comps).
Proof. intros; destruct b; auto using zero_wf. Qed.
Lemma flag0 (b : bool) K c : wf K -> K = only0 (r0 K) -> wf c -> (if b then add0 (r0 K) c else c) = cadd c (if b then K else zero_comps).
Proof. intros W E Wc. destruct b; [rewrite add0_only, <- E; auto|symmetry; apply cadd_zero; auto]. Qed.
Lemma flag2 (b : bool) K c : wf K -> K = only2 (r2 K) -> wf c -> (if b then add2 (r2 K) c else c) = cadd c (if b then K else zero_comps).
Proof. intros W E Wc. destruct b; [rewrite add2_only, <- E; auto|symmetry; apply cadd_zero; auto]. Qed.
Lemma flag4 (b : bool) K c : wf K -> K = only4 (r4 K) -> wf c -> (if b then add4 (r4 K) c else c) = cadd c (if b then K else zero_comps).
Proof. intros W E Wc. destruct b; [rewrite add4_only, <- E; auto|symmetry; apply cadd_zero; auto]. Qed.

Lemma site_step_spec f fourth B0 s m m' c fl : m <> m' -> wf c ->
  site_step f fourth B0 s m m' (c, fl) =
  if (length (existing fourth s) <=? length fl)%nat
  then Some (cadd c (total (map (contribution f B0 s m m') (picked (existing fourth s) fl))), skipn (length (existing fourth s)) fl) else None.
Proof.
  intros D W. unfold site_step. destruct (Req_EM_T m m'); [contradiction|]. cbv zeta. rewrite (shielding_spec f B0 s m m' D).
  rewrite (quad1_spec f B0 s m m'), (quad2_spec f B0 s m m').
  assert (WK : forall k, wf (contribution f B0 s m m' k)) by (intros; apply contribution_wf).
  assert (E0 : contribution f B0 s m m' Shielding1_0 = only0 (r0 (contribution f B0 s m m' Shielding1_0))) by reflexivity.
  assert (E1 : contribution f B0 s m m' Shielding1_2 = only2 (r2 (contribution f B0 s m m' Shielding1_2))) by reflexivity.
  assert (E2 : contribution f B0 s m m' Quad1_2 = only2 (r2 (contribution f B0 s m m' Quad1_2))) by reflexivity.
  assert (E3 : contribution f B0 s m m' Quad2_0 = only0 (r0 (contribution f B0 s m m' Quad2_0))) by reflexivity.
  assert (E4 : contribution f B0 s m m' Quad2_2 = only2 (r2 (contribution f B0 s m m' Quad2_2))) by reflexivity.
  assert (E5 : contribution f B0 s m m' Quad2_4 = only4 (r4 (contribution f B0 s m m' Quad2_4))) by reflexivity.
  set (K := contribution f B0 s m m') in *. clearbody K.
  assert (N : forall fl, total (map K (picked [] fl)) = zero_comps) by reflexivity.
  unfold existing, freq_list_all. cbn [filter exists_forb].
  destruct fl as [|b0 fl]; [destruct (Req_EM_T (s_spin s) (1 / 2)); [|destruct fourth]; reflexivity|].
  destruct fl as [|b1 fl]; [destruct (Req_EM_T (s_spin s) (1 / 2)); [|destruct fourth]; reflexivity|].
  cbn [next_flag obind]. rewrite (flag0 b0), (flag2 b1) by auto using cadd_wf, flag_wf.
  destruct (Req_EM_T (s_spin s) (1 / 2)) as [E|E].
  { cbn [length Nat.leb skipn]. rewrite !picked_cons, N by auto. rewrite cadd_zero, cadd_assoc by auto using flag_wf. auto. }
  destruct fl as [|b2 fl]; [destruct fourth; reflexivity|]. cbn [next_flag obind]. rewrite (flag2 b2) by auto using cadd_wf, flag_wf.
  destruct fourth.
  2: { cbn [length Nat.leb skipn]. rewrite !picked_cons, N by auto. rewrite cadd_zero, !cadd_assoc by auto using flag_wf. auto. }
  destruct fl as [|b3 fl]; [reflexivity|]. destruct fl as [|b4 fl]; [reflexivity|]. destruct fl as [|b5 fl]; [reflexivity|].
  cbn [next_flag obind]. rewrite (flag0 b3), (flag2 b4), (flag4 b5) by auto 8 using cadd_wf, flag_wf.
  cbn [length Nat.leb skipn]. rewrite !picked_cons, N by auto. rewrite cadd_zero, !cadd_assoc by auto using flag_wf. auto.
Qed.

(** ** The loop over the sites *)
Lemma site_step_same f fourth B0 s m st : site_step f fourth B0 s m m st = Some st.
Proof. destruct st. unfold site_step. destruct (Req_EM_T m m); [auto|contradiction]. Qed.
Lemma site_total_wf f fourth B0 listed s m m' : wf (site_total f fourth B0 listed s m m').
Proof. apply total_wf. intros c Hc. apply in_map_iff in Hc. destruct Hc as [k [<- _]]. apply contribution_wf. Qed.
Lemma contribution_same f B0 s m c : contribution f B0 s m m c = zero_comps.
Proof.
  assert (P : tf_p m m = 0) by (unfold tf_p; ring). assert (D : tf_d f m m = 0) by (unfold tf_d; ring).
  assert (F : tf_f f (s_spin s) m m = 0) by (unfold tf_f; ring). assert (Cc : forall a b, tf_c a b f (s_spin s) m m = 0) by (intros; unfold tf_c; rewrite P, F; ring).
  destruct c; cbn [contribution]; rewrite ?P, ?D, ?Cc, ?Rmult_0_r, ?vscale_0, ?turn_length; reflexivity.
Qed.
Lemma total_zero l : (forall c, In c l -> c = zero_comps) -> total l = zero_comps.
Proof. induction l as [|a l IH]; cbn; intros H; auto. fold (total l). rewrite IH by auto. rewrite (H a) by auto. apply cadd_zero, zero_wf. Qed.
Lemma site_total_same f fourth B0 listed s m : site_total f fourth B0 listed s m m = zero_comps.
Proof. apply total_zero. intros c Hc. apply in_map_iff in Hc. destruct Hc as [k [<- _]]. apply contribution_same. Qed.

Definition def_site : site := {| s_spin := 1 / 2; s_gamma := 0; s_iso := 0; s_zeta := 0; s_eta := 0; s_theta := (0, 0, 0); s_Cq := 0; s_qeta := 0; s_qtheta := (0, 0, 0) |}.
Lemma sites_total_cons f fourth B0 listed s sites m mi m' mf :
  sites_total f fourth B0 listed (s :: sites) (m :: mi) (m' :: mf) = cadd (site_total f fourth B0 listed s m m') (sites_total f fourth B0 listed sites mi mf).
Proof. unfold sites_total. cbn [length seq map total fold_right nth]. f_equal. rewrite <- seq_shift, map_map. reflexivity. Qed.
Lemma sites_total_wf f fourth B0 listed sites mi mf : wf (sites_total f fourth B0 listed sites mi mf).
Proof. apply total_wf. intros c Hc. apply in_map_iff in Hc. destruct Hc as [k [<- _]]. apply site_total_wf. Qed.

Lemma site_loop_same f fourth B0 sites mi mf more more' st : length mi = length sites -> mi = mf ->
  site_loop f fourth B0 sites (mi ++ more) (mf ++ more') st = Some st.
Proof.
  intros L <-. induction sites as [|s sites IH] in mi, L |- *; [auto|]. destruct mi as [|m mi]; [discriminate|]. cbn [site_loop app hd tl].
  rewrite site_step_same. cbn [obind]. apply IH. cbn in L. lia.
Qed.
Lemma sites_total_same f fourth B0 listed sites mi : sites_total f fourth B0 listed sites mi mi = zero_comps.
Proof. apply total_zero. intros c Hc. apply in_map_iff in Hc. destruct Hc as [k [<- _]]. apply site_total_same. Qed.

Lemma picked_listed fourth s listed rest : (length (existing fourth s) <= 6)%nat /\
  picked (existing fourth s) (freq_contrib_flags listed ++ rest) = filter (fun c => existsb (contrib_eqb c) listed && exists_forb fourth s c)%bool freq_list_all.
Proof.
  unfold existing, freq_contrib_flags, freq_list_all. cbn [filter exists_forb map app].
  set (e1 := existsb (contrib_eqb Shielding1_0) listed). set (e2 := existsb (contrib_eqb Shielding1_2) listed). set (e3 := existsb (contrib_eqb Quad1_2) listed).
  set (e4 := existsb (contrib_eqb Quad2_0) listed). set (e5 := existsb (contrib_eqb Quad2_2) listed). set (e6 := existsb (contrib_eqb Quad2_4) listed).
  clearbody e1 e2 e3 e4 e5 e6. destruct (Req_EM_T (s_spin s) (1 / 2)); [|destruct fourth]; (split; [cbn; lia|]); destruct e1, e2, e3, e4, e5, e6; reflexivity.
Qed.

Lemma list_eq_R (a b : list R) : length a = length b -> (forall i, (i < length a)%nat -> nth i a 0 = nth i b 0) -> a = b.
Proof. intros L H. apply nth_ext with (d := 0) (d' := 0); auto. Qed.

Lemma site_loop_one f fourth B0 listed rest sites mi mf more more' c : wf c -> length mi = length sites -> length mf = length sites -> one_site_flips mi mf ->
  exists fl, site_loop f fourth B0 sites (mi ++ more) (mf ++ more') (c, freq_contrib_flags listed ++ rest) =
    Some (cadd c (sites_total f fourth B0 listed sites mi mf), fl).
Proof.
  intros W L1 L2 O. induction sites as [|s sites IH] in mi, mf, L1, L2, O |- *.
  - exists (freq_contrib_flags listed ++ rest). cbn [site_loop]. rewrite cadd_zero by auto. reflexivity.
  - destruct mi as [|m mi]; [discriminate|]. destruct mf as [|m' mf]; [discriminate|]. cbn in L1, L2. cbn [site_loop app hd tl].
    rewrite sites_total_cons. destruct (Req_EM_T m m') as [<-|D].
    + rewrite site_step_same. cbn [obind]. rewrite site_total_same, cadd_zero_l by apply sites_total_wf. apply IH; try lia.
      intros i j Hi Hj A B. assert (E : S i = S j) by (apply (O (S i) (S j)); cbn; auto; lia). lia.
    + assert (E : mi = mf).
      { apply list_eq_R; [lia|]. intros i Hi. destruct (Req_dec (nth i mi 0) (nth i mf 0)) as [|N]; auto.
        exfalso. assert (E : 0%nat = S i) by (apply (O 0%nat (S i)); cbn; auto; lia). discriminate. }
      subst mf. rewrite site_step_spec by auto. destruct (picked_listed fourth s listed rest) as [L6 P].
      assert (LE : (length (existing fourth s) <=? length (freq_contrib_flags listed ++ rest))%nat = true) by (apply Nat.leb_le; rewrite app_length; change (length (freq_contrib_flags listed)) with 6%nat; lia).
      rewrite LE. cbn [obind]. rewrite site_loop_same by (auto; lia). rewrite P, sites_total_same, cadd_zero by apply site_total_wf.
      eexists. reflexivity.
Qed.

(** Couplings. *)
Lemma coupling_wf f cp mi mf : wf (coupling_total f cp mi mf).
Proof.
  apply total_wf. intros c [<-|[<-|[<-|[]]]]; [apply only0_wf| |]; apply only2_wf; rewrite vscale_length; apply turn_length.
Qed.
Lemma coupling_step_spec f n mi mf more cp c : wf c -> length mi = n -> length mf = n -> (c_A cp < n)%nat -> (c_X cp < n)%nat ->
  coupling_step f n (mi ++ mf ++ more) cp c = cadd c (coupling_total f cp mi mf).
Proof.
  intros W L1 L2 HA HX. unfold coupling_step. cbv zeta.
  assert (NI : forall i, (i < n)%nat -> nth i (mi ++ mf ++ more) 0 = nth i mi 0) by (intros; apply app_nth1; lia).
  assert (NF : forall i, (i < n)%nat -> nth (i + n) (mi ++ mf ++ more) 0 = nth i mf 0).
  { intros i Hi. rewrite app_nth2 by lia. rewrite app_nth1 by lia. f_equal. lia. }
  rewrite (NI (c_A cp)), (NI (c_X cp)), (NF (c_A cp)), (NF (c_X cp)) by auto.
  set (a := nth (c_A cp) mi 0). set (b := nth (c_X cp) mi 0). set (a' := nth (c_A cp) mf 0). set (b' := nth (c_X cp) mf 0).
  set (d := a' * b' - a * b).
  assert (J : FCF_J f (c_J cp) (c_zeta cp) (c_eta cp) (c_theta cp) a' a b' b =
    (c_J cp * d, vscale d (turn 2 (c_theta cp) (pas2 (- (s6 f * c_eta cp * c_zeta cp)) (c_zeta cp))))).
  { unfold FCF_J, STF_dIS. cbv zeta. fold d. destruct (Req_EM_T d 0) as [E|E].
    - rewrite E, vscale_0, turn_length, Rmult_0_r. reflexivity.
    - unfold sSOT_J. rewrite rotate_turn by auto. f_equal. f_equal. f_equal. apply pas2_eq; ring. }
  assert (Dp : FCF_dipolar (c_D cp) (c_dtheta cp) a' a b' b = vscale d (turn 2 (c_dtheta cp) (pas2 0 (2 * c_D cp)))).
  { unfold FCF_dipolar, STF_dIS. cbv zeta. fold d. destruct (Req_EM_T d 0) as [E|E]; [rewrite E, vscale_0, turn_length; reflexivity|].
    unfold sSOT_dipolar. rewrite rotate_turn by auto. auto. }
  rewrite J, Dp. clear J Dp. unfold coupling_total. cbv zeta. fold a b a' b' d. cbn [total fold_right].
  assert (T : forall th v, wf (only2 (vscale d (turn 2 th v)))) by (intros; apply only2_wf; rewrite vscale_length; apply turn_length).
  rewrite add0_only by auto. rewrite (add2_only _ (cadd c _)) by auto using cadd_wf, only0_wf. rewrite add2_only by auto using cadd_wf, only0_wf. rewrite cadd_zero by auto. rewrite !cadd_assoc. auto.
Qed.
Lemma couplings_wf f cps mi mf : wf (couplings_total f cps mi mf).
Proof. apply total_wf. intros c Hc. apply in_map_iff in Hc. destruct Hc as [k [<- _]]. apply coupling_wf. Qed.
Lemma couplings_spec f n mi mf more cps c : wf c -> length mi = n -> length mf = n -> (forall cp, In cp cps -> (c_A cp < n)%nat /\ (c_X cp < n)%nat) ->
  fold_left (fun c cp => coupling_step f n (mi ++ mf ++ more) cp c) cps c = cadd c (couplings_total f cps mi mf).
Proof.
  intros W L1 L2 H. induction cps as [|cp cps IH] in c, W, H |- *; [symmetry; apply cadd_zero; auto|].
  cbn [fold_left]. destruct (H cp ltac:(left; auto)). rewrite coupling_step_spec by auto. rewrite IH; [|apply cadd_wf; auto; apply coupling_wf|intros; apply H; right; auto].
  unfold couplings_total. cbn [map total fold_right]. rewrite cadd_assoc. auto.
Qed.
Lemma skipn_app_len {A} (a b : list A) n : length a = n -> skipn n (a ++ b) = b.
Proof. intros <-. rewrite skipn_app, skipn_all, Nat.sub_diag. reflexivity. Qed.

Lemma components_of_loop f fourth B0 sites cps mi mf more flags : length mi = length sites -> length mf = length sites ->
  (forall cp, In cp cps -> (c_A cp < length sites)%nat /\ (c_X cp < length sites)%nat) ->
  (forall c fl, site_loop f fourth B0 sites (mi ++ mf ++ more) (mf ++ more) (zero_comps, flags) = Some (c, fl) -> wf c) ->
  event_components f fourth B0 sites cps (mi ++ mf ++ more) flags =
  option_map (fun st => cadd (fst st) (couplings_total f cps mi mf)) (site_loop f fourth B0 sites (mi ++ mf ++ more) (mf ++ more) (zero_comps, flags)).
Proof.
  intros L1 L2 H W. unfold event_components. cbv zeta. rewrite (skipn_app_len mi) by auto.
  destruct (site_loop f fourth B0 sites (mi ++ mf ++ more) (mf ++ more) (zero_comps, flags)) as [[c fl]|]; [|reflexivity].
  cbn [obind option_map fst]. rewrite couplings_spec; eauto.
Qed.
Lemma site_loop_wf f fourth B0 sites mi mf c fl c' fl' : wf c -> site_loop f fourth B0 sites mi mf (c, fl) = Some (c', fl') -> wf c'.
Proof.
  induction sites as [|s sites IH] in mi, mf, c, fl |- *; cbn [site_loop]; intros W H; [congruence|].
  destruct (Req_EM_T (hd 0 mi) (hd 0 mf)) as [E|E].
  - rewrite E, site_step_same in H. cbn [obind] in H. eauto.
  - rewrite site_step_spec in H by auto. destruct (_ <=? _)%nat; [|discriminate]. cbn [obind] in H. eapply IH; [|exact H].
    apply cadd_wf; auto. apply total_wf. intros k Hk. apply in_map_iff in Hk. destruct Hk as [x [<- _]]. apply contribution_wf.
Qed.

Theorem components_one f fourth B0 sites cps mi mf more listed rest : length mi = length sites -> length mf = length sites ->
  (forall cp, In cp cps -> (c_A cp < length sites)%nat /\ (c_X cp < length sites)%nat) -> one_site_flips mi mf ->
  event_components f fourth B0 sites cps (mi ++ mf ++ more) (freq_contrib_flags listed ++ rest) =
  Some (cadd (sites_total f fourth B0 listed sites mi mf) (couplings_total f cps mi mf)).
Proof.
  intros L1 L2 H O. rewrite components_of_loop; auto; [|intros; eapply site_loop_wf; eauto using zero_wf].
  destruct (site_loop_one f fourth B0 listed rest sites mi mf (mf ++ more) more zero_comps zero_wf L1 L2 O) as [fl E]. rewrite E.
  cbn [option_map fst]. rewrite cadd_zero_l by apply sites_total_wf. auto.
Qed.

(** All the flags set. *)
Lemma picked_true E fl : (forall b, In b fl -> b = true) -> (length E <= length fl)%nat -> picked E fl = E.
Proof.
  intros T. unfold picked. induction E as [|e E IH] in fl, T |- *; [auto|]. destruct fl as [|b fl]; cbn [length]; [lia|]. intros L.
  cbn [combine flat_map fst snd]. rewrite (T b) by (left; auto). cbn [app]. rewrite IH; [auto|intros; apply T; right; auto|lia].
Qed.
Lemma skipn_in {A} n (l : list A) x : In x (skipn n l) -> In x l.
Proof. induction n in l |- *; [auto|]. destruct l; cbn; auto. Qed.
Lemma existing_all fourth s : filter (fun c => existsb (contrib_eqb c) freq_list_all && exists_forb fourth s c)%bool freq_list_all = existing fourth s.
Proof. unfold existing, freq_list_all. cbn [filter existsb contrib_eqb orb andb]. reflexivity. Qed.
Lemma site_loop_all f fourth B0 sites mi mf more more' fl c : wf c -> length mi = length sites -> length mf = length sites ->
  (forall b, In b fl -> b = true) -> (flags_needed fourth sites mi mf <= length fl)%nat ->
  exists fl', site_loop f fourth B0 sites (mi ++ more) (mf ++ more') (c, fl) = Some (cadd c (sites_total f fourth B0 freq_list_all sites mi mf), fl').
Proof.
  intros W L1 L2 T. induction sites as [|s sites IH] in mi, mf, L1, L2, fl, T, c, W |- *; intros N.
  - exists fl. cbn [site_loop]. rewrite cadd_zero by auto. reflexivity.
  - destruct mi as [|m mi]; [discriminate|]. destruct mf as [|m' mf]; [discriminate|]. cbn in L1, L2. cbn [site_loop app hd tl].
    rewrite sites_total_cons. cbn [flags_needed hd tl] in N. destruct (Req_EM_T m m') as [<-|D].
    + rewrite site_step_same. cbn [obind]. rewrite site_total_same, cadd_zero_l by apply sites_total_wf. apply IH; auto; lia.
    + rewrite site_step_spec by auto. assert (LE : (length (existing fourth s) <=? length fl)%nat = true) by (apply Nat.leb_le; lia).
      rewrite LE. cbn [obind]. rewrite picked_true by (auto; lia).
      assert (E : total (map (contribution f B0 s m m') (existing fourth s)) = site_total f fourth B0 freq_list_all s m m') by (unfold site_total; rewrite existing_all; auto).
      rewrite E. destruct (IH mi mf (skipn (length (existing fourth s)) fl) (cadd c (site_total f fourth B0 freq_list_all s m m'))) as [fl' F]; try lia.
      * apply cadd_wf; auto. apply site_total_wf.
      * intros b Hb. apply T. eapply skipn_in; eauto.
      * rewrite skipn_length. lia.
      * exists fl'. rewrite F. rewrite cadd_assoc. auto.
Qed.
Theorem components_all f fourth B0 sites cps mi mf more fl : length mi = length sites -> length mf = length sites ->
  (forall cp, In cp cps -> (c_A cp < length sites)%nat /\ (c_X cp < length sites)%nat) ->
  (forall b, In b fl -> b = true) -> (flags_needed fourth sites mi mf <= length fl)%nat ->
  event_components f fourth B0 sites cps (mi ++ mf ++ more) fl =
  Some (cadd (sites_total f fourth B0 freq_list_all sites mi mf) (couplings_total f cps mi mf)).
Proof.
  intros L1 L2 H T N. rewrite components_of_loop; auto; [|intros; eapply site_loop_wf; eauto using zero_wf].
  destruct (site_loop_all f fourth B0 sites mi mf (mf ++ more) more fl zero_comps zero_wf L1 L2 T N) as [fl' E]. rewrite E.
  cbn [option_map fst]. rewrite cadd_zero_l by apply sites_total_wf. auto.
Qed.
Lemma flags_short f fourth B0 sites mi mf more more' fl c : wf c -> length mi = length sites -> length mf = length sites ->
  (length fl < flags_needed fourth sites mi mf)%nat -> site_loop f fourth B0 sites (mi ++ more) (mf ++ more') (c, fl) = None.
Proof.
  intros W L1 L2. induction sites as [|s sites IH] in mi, mf, L1, L2, fl, c, W |- *; intros N; [cbn in N; lia|].
  destruct mi as [|m mi]; [discriminate|]. destruct mf as [|m' mf]; [discriminate|]. cbn in L1, L2. cbn [site_loop app hd tl].
  cbn [flags_needed hd tl] in N. destruct (Req_EM_T m m') as [<-|D].
  - rewrite site_step_same. cbn [obind]. apply IH; auto; lia.
  - rewrite site_step_spec by auto. destruct (Nat.leb_spec (length (existing fourth s)) (length fl)); [|reflexivity]. cbn [obind].
    apply IH; try lia; [|rewrite skipn_length; lia].
    apply cadd_wf; auto. apply total_wf. intros k Hk. apply in_map_iff in Hk. destruct Hk as [x [<- _]]. apply contribution_wf.
Qed.

(** ** Swapping the two states *)
Lemma only0_neg x : cneg (only0 x) = only0 (- x).
Proof. apply comps_ext; cbn [cneg only0 r0 r2 r4]; auto using vopp_zero. Qed.
Lemma only2_neg v : cneg (only2 v) = only2 (map Copp v).
Proof. apply comps_ext; cbn [cneg only2 r0 r2 r4]; auto using vopp_zero. ring. Qed.
Lemma only4_neg v : cneg (only4 v) = only4 (map Copp v).
Proof. apply comps_ext; cbn [cneg only4 r0 r2 r4]; auto using vopp_zero. ring. Qed.
Lemma contribution_swap f B0 s m m' c : contribution f B0 s m' m c = cneg (contribution f B0 s m m' c).
Proof.
  assert (P : tf_p m' m = - tf_p m m') by (unfold tf_p; ring). assert (D : tf_d f m' m = - tf_d f m m') by (unfold tf_d; ring).
  assert (F : tf_f f (s_spin s) m' m = - tf_f f (s_spin s) m m') by (unfold tf_f; ring).
  assert (Cc : forall a b, tf_c a b f (s_spin s) m' m = - tf_c a b f (s_spin s) m m') by (intros; unfold tf_c; rewrite P, F; ring).
  destruct c; cbn [contribution]; rewrite ?P, ?D, ?Cc, ?only0_neg, ?only2_neg, ?only4_neg, ?vscale_opp; try reflexivity; f_equal; ring.
Qed.
Lemma site_loop_swap f fourth B0 sites mi mf c fl : wf c ->
  site_loop f fourth B0 sites mf mi (cneg c, fl) = option_map (fun st => (cneg (fst st), snd st)) (site_loop f fourth B0 sites mi mf (c, fl)).
Proof.
  induction sites as [|s sites IH] in mi, mf, c, fl |- *; cbn [site_loop]; intros W; [reflexivity|].
  destruct (Req_EM_T (hd 0 mi) (hd 0 mf)) as [E|E].
  - rewrite E, !site_step_same. cbn [obind]. auto.
  - rewrite !site_step_spec by auto using cneg_wf. destruct (_ <=? _)%nat; [|reflexivity]. cbn [obind].
    rewrite <- IH.
    + f_equal. f_equal. rewrite cneg_add. f_equal. rewrite cneg_total, map_map. f_equal. apply map_ext. intros k. apply contribution_swap.
    + apply cadd_wf; auto. apply total_wf. intros k Hk. apply in_map_iff in Hk. destruct Hk as [x [<- _]]. apply contribution_wf.
Qed.
Lemma couplings_swap f cps mi mf : couplings_total f cps mf mi = cneg (couplings_total f cps mi mf).
Proof.
  unfold couplings_total. rewrite cneg_total, map_map. f_equal. apply map_ext. intros cp. unfold coupling_total. cbv zeta. rewrite cneg_total. cbn [map].
  rewrite only0_neg, !only2_neg, <- !vscale_opp.
  replace (nth (c_A cp) mi 0 * nth (c_X cp) mi 0 - nth (c_A cp) mf 0 * nth (c_X cp) mf 0)
    with (- (nth (c_A cp) mf 0 * nth (c_X cp) mf 0 - nth (c_A cp) mi 0 * nth (c_X cp) mi 0)) by ring.
  f_equal. f_equal. f_equal. ring.
Qed.
(** The loop reads only the first entries. *)
Lemma site_loop_app f fourth B0 sites mi mf a b a' b' st : length mi = length sites -> length mf = length sites ->
  site_loop f fourth B0 sites (mi ++ a) (mf ++ b) st = site_loop f fourth B0 sites (mi ++ a') (mf ++ b') st.
Proof.
  induction sites as [|s sites IH] in mi, mf, st |- *; [reflexivity|]. destruct mi as [|m mi], mf as [|m' mf]; try discriminate.
  cbn [site_loop app hd tl length]. intros L1 L2. destruct (site_step f fourth B0 s m m' st); [|reflexivity]. cbn [obind]. apply IH; lia.
Qed.
Theorem components_swap f fourth B0 sites cps mi mf more flags : length mi = length sites -> length mf = length sites ->
  (forall cp, In cp cps -> (c_A cp < length sites)%nat /\ (c_X cp < length sites)%nat) ->
  event_components f fourth B0 sites cps (mf ++ mi ++ more) flags = option_map cneg (event_components f fourth B0 sites cps (mi ++ mf ++ more) flags).
Proof.
  intros L1 L2 H. rewrite !components_of_loop; auto; try (intros; eapply site_loop_wf; eauto using zero_wf).
  rewrite (site_loop_app f fourth B0 sites mf mi (mi ++ more) more (mf ++ more) (mf ++ more)) by auto.
  rewrite (site_loop_app f fourth B0 sites mi mf (mf ++ more) more (mf ++ more) (mf ++ more)) by auto.
  rewrite <- cneg_zero at 1. rewrite site_loop_swap by apply zero_wf.
  destruct (site_loop _ _ _ _ _ _ _) as [[c fl]|]; [|reflexivity]. cbn [option_map fst]. rewrite couplings_swap, cneg_add. auto.
Qed.
Lemma app_prefix f fourth B0 sites cps mi mf more more' flags : length mi = length sites -> length mf = length sites ->
  (forall cp, In cp cps -> (c_A cp < length sites)%nat /\ (c_X cp < length sites)%nat) ->
  event_components f fourth B0 sites cps (mi ++ mf ++ more) flags = event_components f fourth B0 sites cps (mi ++ mf ++ more') flags.
Proof.
  intros L1 L2 H. rewrite !components_of_loop; auto; try (intros; eapply site_loop_wf; eauto using zero_wf).
  rewrite (site_loop_app f fourth B0 sites mi mf (mf ++ more) more (mf ++ more') more') by auto. reflexivity.
Qed.
Theorem components_same f fourth B0 sites cps mi more flags : length mi = length sites ->
  (forall cp, In cp cps -> (c_A cp < length sites)%nat /\ (c_X cp < length sites)%nat) ->
  event_components f fourth B0 sites cps (mi ++ mi ++ more) flags = Some zero_comps.
Proof.
  intros L H. rewrite components_of_loop; auto; [|intros; eapply site_loop_wf; eauto using zero_wf]. rewrite site_loop_same by auto. cbn [option_map fst].
  f_equal. rewrite cadd_zero_l by apply couplings_wf. unfold couplings_total. apply total_zero. intros c Hc. apply in_map_iff in Hc. destruct Hc as [cp [<- _]].
  unfold coupling_total. rewrite Rminus_eq_0. rewrite !vscale_0, Rmult_0_r, !turn_length. apply total_zero. intros c [<-|[<-|[<-|[]]]]; reflexivity.
Qed.

(** ** Reality *)
Lemma pas2_real a b : real_tensor 2 (pas2 a b).
Proof. split; auto. intros m Hm. destruct m as [|[|[|m]]]; [..|lia]; cbn; apply C_ext; cbn; ring. Qed.
Lemma pas4_real a b c : real_tensor 4 (pas4 a b c).
Proof. split; auto. intros m Hm. destruct m as [|[|[|[|[|m]]]]]; [..|lia]; cbn; apply C_ext; cbn; ring. Qed.
Lemma turn_real l th v : rank l -> real_tensor l v -> real_tensor l (turn l th v).
Proof. intros H R. destruct th as [[a b] g]. apply rotation_real; auto. Qed.
Lemma nth_vscale t v i : nth i (vscale t v) (RtoC 0) = (RtoC t * nth i v (RtoC 0))%C.
Proof.
  unfold vscale. rewrite <- (map_nth (fun z => (RtoC t * z)%C)). assert (Z : (RtoC t * RtoC 0)%C = RtoC 0) by ring. rewrite Z. f_equal. apply map_ext. intros z. apply C_ext; cbn; ring.
Qed.
Lemma vscale_real l t v : real_tensor l v -> real_tensor l (vscale t v).
Proof. intros [L H]. split; [rewrite vscale_length; auto|]. intros m Hm. rewrite !nth_vscale, H by auto. apply C_ext; cbn; ring. Qed.
Lemma vadd_real l a b : real_tensor l a -> real_tensor l b -> real_tensor l (vadd a b).
Proof.
  intros [L H] [L' H']. split; [rewrite vadd_length; congruence|]. intros m Hm. rewrite !nth_vadd by congruence. rewrite H, H' by auto. apply C_ext; cbn; ring.
Qed.
Lemma vzero_real l : real_tensor l (vzero (2 * l + 1)).
Proof. split; [apply vzero_length|]. intros m Hm. unfold vzero. rewrite !nth_repeat. apply C_ext; cbn; ring. Qed.
Definition creal (c : comps) : Prop := real_tensor 2 (r2 c) /\ real_tensor 4 (r4 c).
Lemma creal_zero : creal zero_comps.
Proof. split; [exact (vzero_real 2)|exact (vzero_real 4)]. Qed.
Lemma creal_add a b : creal a -> creal b -> creal (cadd a b).
Proof. intros [A B] [A' B']. split; apply vadd_real; auto. Qed.
Lemma creal_total l : (forall c, In c l -> creal c) -> creal (total l).
Proof. induction l; cbn; intros H; [apply creal_zero|]. apply creal_add; auto. Qed.
Lemma creal_contribution f B0 s m m' c : creal (contribution f B0 s m m' c).
Proof.
  destruct c; cbn [contribution]; (split; cbn [only0 only2 only4 r2 r4];
    first [exact (vzero_real 2)|exact (vzero_real 4)|apply vscale_real, turn_real; auto using pas2_real, pas4_real]).
Qed.
Lemma site_loop_real f fourth B0 sites mi mf c fl c' fl' : wf c -> creal c -> site_loop f fourth B0 sites mi mf (c, fl) = Some (c', fl') -> creal c'.
Proof.
  induction sites as [|s sites IH] in mi, mf, c, fl |- *; cbn [site_loop]; intros W R H; [congruence|].
  destruct (Req_EM_T (hd 0 mi) (hd 0 mf)) as [E|E].
  - rewrite E, site_step_same in H. cbn [obind] in H. eauto.
  - rewrite site_step_spec in H by auto. destruct (_ <=? _)%nat; [|discriminate]. cbn [obind] in H. eapply IH; [| |exact H].
    + apply cadd_wf; auto. apply total_wf. intros k Hk. apply in_map_iff in Hk. destruct Hk as [x [<- _]]. apply contribution_wf.
    + apply creal_add; auto. apply creal_total. intros k Hk. apply in_map_iff in Hk. destruct Hk as [x [<- _]]. apply creal_contribution.
Qed.
Lemma coupling_step_real f n tr cp c : creal c -> creal (coupling_step f n tr cp c).
Proof.
  intros [A B]. unfold coupling_step. cbv zeta. unfold FCF_J, FCF_dipolar, sSOT_J, sSOT_dipolar. cbv zeta.
  rewrite !rotate_turn by auto. destruct (Req_EM_T _ 0); (split; cbn [add2 add0 r2 r4]; auto);
  repeat apply vadd_real; auto; first [exact (vzero_real 2)|apply vscale_real, turn_real; auto using pas2_real].
Qed.
Lemma components_real f fourth B0 sites cps tr flags c : event_components f fourth B0 sites cps tr flags = Some c -> creal c.
Proof.
  unfold event_components. cbv zeta. intros H. destruct (site_loop _ _ _ _ _ _ _) as [[c0 fl]|] eqn:E; [|discriminate]. cbn [obind] in H.
  apply site_loop_real in E; auto using zero_wf, creal_zero. injection H as <-. induction cps as [|cp cps IH] in c0, E |- *; cbn [fold_left]; auto using coupling_step_real.
Qed.
