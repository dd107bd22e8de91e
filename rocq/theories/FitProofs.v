(** Proofs about parameter names and the parameters of a fit. *)
From Coq Require Import DecimalString Decimal DecimalNat ZArith QArith Bool Ascii String List Lia Lqa.
From Verif Require Import Base SitesModel SitesProofs DictModel FitModel FitSpec.
Import ListNotations.
Open Scope string_scope.
Open Scope list_scope.

(** * Decimal numerals *)
Fixpoint uint_digits (d : uint) : list nat :=
  match d with
  | Nil => [] | D0 d => 0%nat :: uint_digits d | D1 d => 1%nat :: uint_digits d | D2 d => 2%nat :: uint_digits d
  | D3 d => 3%nat :: uint_digits d | D4 d => 4%nat :: uint_digits d | D5 d => 5%nat :: uint_digits d | D6 d => 6%nat :: uint_digits d
  | D7 d => 7%nat :: uint_digits d | D8 d => 8%nat :: uint_digits d | D9 d => 9%nat :: uint_digits d
  end.
Lemma tenfold_spec n : Nat.tail_mul 10 n = (10 * n)%nat.
Proof. apply Nat.tail_mul_spec. Qed.
Lemma of_uint_acc_fold d : forall acc, Nat.of_uint_acc d acc = fold_left (fun a x => 10 * a + x)%nat (uint_digits d) acc.
Proof.
  induction d; intros acc; cbn [Nat.of_uint_acc uint_digits fold_left]; [reflexivity|..]; rewrite IHd, ?tenfold_spec; f_equal; lia.
Qed.
Lemma int_from_uint d : forall acc, int_from acc (NilEmpty.string_of_uint d) = fold_left (fun a x => 10 * a + x)%nat (uint_digits d) acc.
Proof.
  induction d; intros acc; cbn [NilEmpty.string_of_uint int_from uint_digits fold_left]; [reflexivity|..]; rewrite IHd; reflexivity.
Qed.
Lemma all_digits_uint d : all_digits (NilEmpty.string_of_uint d) = true.
Proof. induction d; cbn; auto. Qed.
Lemma to_uint_nonnil n : Nat.to_uint n <> Nil.
Proof. intros H. pose proof (Unsigned.of_to n) as E. rewrite H in E. cbn in E. subst n. discriminate H. Qed.
Lemma dec_empty n : dec n = NilEmpty.string_of_uint (Nat.to_uint n).
Proof. unfold dec, NilZero.string_of_uint. pose proof (to_uint_nonnil n). destruct (Nat.to_uint n); congruence || reflexivity. Qed.
Lemma int_dec n : int_of (dec n) = n.
Proof.
  rewrite dec_empty. unfold int_of. rewrite int_from_uint, <- of_uint_acc_fold.
  change (Nat.of_uint (Nat.to_uint n) = n). apply Unsigned.of_to.
Qed.
Lemma digits_dec n : all_digits (dec n) = true.
Proof. rewrite dec_empty. apply all_digits_uint. Qed.
Lemma dec_nonempty n : exists c r, dec n = String c r /\ is_digit c = true /\ all_digits r = true.
Proof.
  pose proof (digits_dec n) as D. destruct (dec n) as [|c r] eqn:E.
  - exfalso. rewrite dec_empty in E. pose proof (to_uint_nonnil n). destruct (Nat.to_uint n); cbn in E; congruence.
  - cbn in D. apply andb_true_iff in D as []. eauto.
Qed.
Lemma numeric_dec n : isnumeric (dec n) = true.
Proof. destruct (dec_nonempty n) as [c [r [E [A B]]]]. rewrite E. cbn. now rewrite A, B. Qed.
Lemma dec_inj m n : dec m = dec n -> m = n.
Proof. intros H. rewrite <- (int_dec m), <- (int_dec n). now rewrite H. Qed.
Lemma int_from_ge s : forall acc, (acc <= int_from acc s)%nat.
Proof. induction s as [|c s IH]; intros acc; cbn [int_from]; [lia|]. etransitivity; [|apply IH]. lia. Qed.
Lemma int_from_mono s : forall a b, (a <= b)%nat -> (int_from a s <= int_from b s)%nat.
Proof. induction s as [|c s IH]; intros a b H; cbn [int_from]; auto. apply IH. lia. Qed.
Lemma int_from_app p s : forall acc, int_from acc (p ++ s)%string = int_from (int_from acc p) s.
Proof. induction p as [|c p IH]; intros acc; cbn [int_from append]; auto. Qed.
Lemma int_suffix p s : (int_of s <= int_of (p ++ s)%string)%nat.
Proof. unfold int_of. rewrite int_from_app. apply int_from_mono. lia. Qed.

(** * Strings with arbitrary numerals in them *)
Inductive tok := Ch (c : ascii) | Num (n : nat).
Fixpoint denote (ts : list tok) : string :=
  match ts with [] => EmptyString | Ch c :: r => String c (denote r) | Num n :: r => (dec n ++ denote r)%string end.
Fixpoint lit (s : string) : list tok := match s with EmptyString => [] | String c r => Ch c :: lit r end.
Fixpoint no_digits (s : string) : bool := match s with EmptyString => true | String c r => negb (is_digit c) && no_digits r end.

Lemma denote_app a b : denote (a ++ b) = (denote a ++ denote b)%string.
Proof. induction a as [|[c|n] a IH]; cbn; [reflexivity | now rewrite IH | rewrite IH, app_assoc_s; reflexivity]. Qed.
Lemma denote_lit s : denote (lit s) = s.
Proof. induction s; cbn; congruence. Qed.

Fixpoint tprefix (p : string) (ts : list tok) : bool :=
  match p with
  | EmptyString => true
  | String a p' => match ts with Ch c :: r => if Ascii.eqb a c then tprefix p' r else false | _ => false end
  end.
Lemma prefix_tok p : no_digits p = true -> forall ts, prefix p (denote ts) = tprefix p ts.
Proof.
  induction p as [|a p IH]; intros N ts; [now destruct (denote ts)|]. cbn in N. apply andb_true_iff in N as [Na Np].
  apply negb_true_iff in Na. destruct ts as [|[c|n] ts]; cbn [denote prefix tprefix]; [reflexivity|..].
  - destruct (ascii_dec a c) as [->|D].
    + rewrite Ascii.eqb_refl. now apply IH.
    + apply Ascii.eqb_neq in D. now rewrite D.
  - destruct (dec_nonempty n) as [c [r [E [A _]]]]. rewrite E. cbn [append prefix].
    destruct (ascii_dec a c) as [->|D]; [congruence | reflexivity].
Qed.

Fixpoint treplace_from (old : string) (new : list tok) (ts : list tok) (skip : nat) : list tok :=
  match ts with
  | [] => []
  | t :: r =>
      match skip with
      | S k => treplace_from old new r k
      | O => if tprefix old ts then new ++ treplace_from old new r (String.length old - 1)
             else t :: treplace_from old new r 0
      end
  end.
Definition chars_first (k : nat) (ts : list tok) : Prop := Forall (fun t => match t with Ch _ => True | Num _ => False end) (firstn k ts).

Lemma tprefix_chars p : forall ts, tprefix p ts = true -> chars_first (String.length p) ts.
Proof.
  unfold chars_first. induction p as [|a p IH]; intros ts H; [constructor|]. destruct ts as [|[c|n] ts]; cbn in *; try discriminate.
  destruct (Ascii.eqb a c); [|discriminate]. constructor; auto.
Qed.
Lemma replace_digits old new a p d s : old = String a p -> is_digit a = false -> all_digits d = true ->
  replace_from old new (d ++ s)%string 0 = (d ++ replace_from old new s 0)%string.
Proof.
  intros -> Na. induction d as [|c d IH]; intros D; [reflexivity|]. cbn in D. apply andb_true_iff in D as [Dc Dd].
  cbn [append replace_from]. replace (prefix (String a p) (String c (d ++ s))) with false; [now rewrite IH|].
  cbn. destruct (ascii_dec a c); [congruence | reflexivity].
Qed.
Lemma replace_tok old new a p : old = String a p -> no_digits old = true -> forall ts skip, chars_first skip ts ->
  replace_from old new (denote ts) skip = denote (treplace_from old (lit new) ts skip).
Proof.
  intros Eo N. assert (Na : is_digit a = false) by (subst old; cbn in N; apply andb_true_iff in N as [Na _]; now apply negb_true_iff).
  induction ts as [|t ts IH]; intros skip C.
  - destruct skip; reflexivity.
  - destruct skip as [|k].
    + destruct t as [c|n].
      * assert (T : replace_from old new (denote (Ch c :: ts)) 0 =
          if prefix old (denote (Ch c :: ts)) then (new ++ replace_from old new (denote ts) (String.length old - 1))%string
          else String c (replace_from old new (denote ts) 0)) by reflexivity.
        rewrite T, prefix_tok by auto. cbn [treplace_from]. destruct (tprefix old (Ch c :: ts)) eqn:E.
        -- rewrite denote_app, denote_lit, <- IH; [reflexivity|]. apply tprefix_chars in E. subst old. unfold chars_first in *.
           cbn [String.length Nat.sub firstn] in *. rewrite Nat.sub_0_r. now inversion E.
        -- cbn [denote]. rewrite <- IH; [reflexivity|]. constructor.
      * cbn [denote]. rewrite (replace_digits old new a p) by (auto using digits_dec).
        cbn [treplace_from]. replace (tprefix old (Num n :: ts)) with false by (subst old; reflexivity).
        cbn [denote]. rewrite <- IH; [reflexivity | constructor].
    + unfold chars_first in C. cbn [firstn] in C. inversion C; subst. destruct t as [c|n]; [|contradiction].
      cbn [denote replace_from treplace_from]. apply IH. exact H2.
Qed.
Definition treplace (old new : string) (ts : list tok) : list tok := treplace_from old (lit new) ts 0.
Definition good (old : string) : bool := match old with EmptyString => false | _ => no_digits old end.
Lemma replace_good old new ts : good old = true -> replace old new (denote ts) = denote (treplace old new ts).
Proof.
  intros G. destruct old as [|a p]; [discriminate|]. unfold replace, treplace. eapply replace_tok; eauto. constructor.
Qed.

Definition tencode (ts : list tok) : list tok := fold_left (fun ts item => treplace (fst item) (snd item) ts) ENCODING_PAIRS ts.
Definition tdecode (ts : list tok) : list tok := fold_left (fun ts item => treplace (snd item) (fst item) ts) DECODING_PAIRS ts.
Lemma fold_replace pairs ts (f g : string * string -> string) : forallb (fun p => good (f p)) pairs = true ->
  fold_left (fun s item => replace (f item) (g item) s) pairs (denote ts) =
  denote (fold_left (fun ts item => treplace (f item) (g item) ts) pairs ts).
Proof.
  revert ts. induction pairs as [|p r IH]; intros ts H; [reflexivity|]. cbn in H. apply andb_true_iff in H as [A B].
  cbn [fold_left]. rewrite replace_good by auto. now apply IH.
Qed.
Lemma encode_tok ts : str_encode (denote ts) = denote (tencode ts).
Proof. apply (fold_replace ENCODING_PAIRS ts fst snd). reflexivity. Qed.

Fixpoint tsplit (c : ascii) (ts : list tok) : list (list tok) :=
  match ts with
  | [] => [[]]
  | t :: r =>
      if match t with Ch x => Ascii.eqb x c | Num _ => false end then [] :: tsplit c r
      else match tsplit c r with a :: l => (t :: a) :: l | [] => [[t]] end
  end.
Lemma split_nonempty c s : split c s <> [].
Proof. destruct s; cbn; [discriminate|]. destruct (Ascii.eqb a c); [discriminate|]. now destruct (split c s). Qed.
Lemma split_digits c d s : is_digit c = false -> all_digits d = true ->
  split c (d ++ s)%string = match split c s with a :: l => (d ++ a)%string :: l | [] => [d] end.
Proof.
  intros N. induction d as [|x d IH]; intros D.
  - cbn [append]. pose proof (split_nonempty c s). destruct (split c s); congruence.
  - cbn in D. apply andb_true_iff in D as [Dx Dd]. cbn [append split]. replace (Ascii.eqb x c) with false.
    + rewrite IH by auto. now destruct (split c s).
    + symmetry. apply Ascii.eqb_neq. congruence.
Qed.
Lemma split_tok c ts : is_digit c = false -> split c (denote ts) = map denote (tsplit c ts).
Proof.
  intros N. induction ts as [|[x|n] ts IH]; [reflexivity|..]; cbn [denote tsplit].
  - cbn [split]. destruct (Ascii.eqb x c). cbn. now rewrite IH. rewrite IH. destruct (tsplit c ts); reflexivity.
  - rewrite split_digits by (auto using digits_dec). rewrite IH. destruct (tsplit c ts); cbn; [now rewrite app_nil_s | reflexivity].
Qed.
Lemma decode_tok ts : str_decode (denote ts) = map denote (tsplit "." (tdecode ts)).
Proof.
  unfold str_decode. rewrite (fold_replace DECODING_PAIRS ts snd fst) by reflexivity. now apply split_tok.
Qed.

Fixpoint tcontains (p : string) (ts : list tok) : bool :=
  if tprefix p ts then true else match ts with [] => false | _ :: r => tcontains p r end.
Lemma contains_digits p a q d s : p = String a q -> is_digit a = false -> all_digits d = true -> contains p (d ++ s)%string = contains p s.
Proof.
  intros -> N. induction d as [|x d IH]; intros D; [reflexivity|]. cbn in D. apply andb_true_iff in D as [Dx Dd].
  cbn [append contains]. replace (prefix (String a q) (String x (d ++ s))) with false; [auto|].
  cbn. destruct (ascii_dec a x); [congruence | reflexivity].
Qed.
Lemma contains_tok p ts : good p = true -> contains p (denote ts) = tcontains p ts.
Proof.
  intros G. destruct p as [|a q] eqn:E; [discriminate|]. rewrite <- E in *.
  assert (Na : is_digit a = false) by (subst p; cbn in G; apply andb_true_iff in G as [Na _]; now apply negb_true_iff).
  assert (Np : no_digits p = true) by (subst p; exact G).
  induction ts as [|[x|n] ts IH].
  - subst p. reflexivity.
  - cbn [tcontains]. rewrite <- IH, <- (prefix_tok p Np). reflexivity.
  - cbn [denote tcontains]. rewrite (contains_digits p a q) by (auto using digits_dec). rewrite IH. subst p. reflexivity.
Qed.

(** * Names of attributes *)
Definition ttext (p : path) : list tok :=
  match p with
  | Abundance i => lit "spin_systems[" ++ [Num i] ++ lit "].abundance"
  | Shift i j => lit "spin_systems[" ++ [Num i] ++ lit "].sites[" ++ [Num j] ++ lit "].isotropic_chemical_shift"
  | SiteT i j t a => lit "spin_systems[" ++ [Num i] ++ lit "].sites[" ++ [Num j] ++ lit "]." ++ lit (stensor_name t) ++ lit "." ++ lit (tattr_name a)
  | IsoJ i j => lit "spin_systems[" ++ [Num i] ++ lit "].couplings[" ++ [Num j] ++ lit "].isotropic_j"
  | CoupT i j t a => lit "spin_systems[" ++ [Num i] ++ lit "].couplings[" ++ [Num j] ++ lit "]." ++ lit (ctensor_name t) ++ lit "." ++ lit (tattr_name a)
  end.
Definition tname (p : path) : list tok :=
  match p with
  | Abundance i => lit "sys_" ++ [Num i] ++ lit "_abundance"
  | Shift i j => lit "sys_" ++ [Num i] ++ lit "_site_" ++ [Num j] ++ lit "_isotropic_chemical_shift"
  | SiteT i j t a => lit "sys_" ++ [Num i] ++ lit "_site_" ++ [Num j] ++ lit "_" ++ lit (stensor_name t) ++ lit "_" ++ lit (tattr_name a)
  | IsoJ i j => lit "sys_" ++ [Num i] ++ lit "_coupling_" ++ [Num j] ++ lit "_isotropic_j"
  | CoupT i j t a => lit "sys_" ++ [Num i] ++ lit "_coupling_" ++ [Num j] ++ lit "_" ++ lit (ctensor_name t) ++ lit "_" ++ lit (tattr_name a)
  end.
Lemma denote_num n : denote [Num n] = dec n.
Proof. cbn. apply app_nil_s. Qed.
Ltac to_strings := rewrite ?denote_app, ?denote_lit, ?denote_num.
Lemma text_tok p : python_text p = denote (ttext p).
Proof. destruct p; cbn [ttext]; to_strings; reflexivity. Qed.
Lemma name_tok p : documented_name p = denote (tname p).
Proof. destruct p; cbn [tname]; to_strings; reflexivity. Qed.

Lemma encode_documented p : encodable p -> str_encode (python_text p) = documented_name p.
Proof.
  intros E. rewrite text_tok, name_tok, encode_tok. f_equal.
  destruct p as [i|i j|i j t a|i j|i j t a]; try destruct t; try destruct a; try contradiction; vm_compute; reflexivity.
Qed.
Lemma decode_documented p : decodable p -> str_decode (documented_name p) = steps p.
Proof.
  intros E. rewrite name_tok, decode_tok.
  assert (H : exists l, tsplit "." (tdecode (tname p)) = l /\ map denote l = steps p).
  { destruct p as [i|i j|i j t a|i j|i j t a]; try destruct t; try destruct a; try contradiction;
      (eexists; split; [vm_compute; reflexivity|]); cbn [map]; rewrite ?denote_num; cbn [denote steps stensor_name ctensor_name tattr_name]; reflexivity. }
  destruct H as [l [-> H]]. exact H.
Qed.
Lemma decode_jsym i j a : str_decode (documented_name (CoupT i j JSym a)) =
  ["spin_systems"; dec i; "couplings"; dec j ++ "_j_symmetric_" ++ tattr_name a]%string.
Proof.
  rewrite name_tok, decode_tok.
  assert (H : tsplit "." (tdecode (tname (CoupT i j JSym a))) = [lit "spin_systems"; [Num i]; lit "couplings"; Num j :: lit "_j_symmetric_" ++ lit (tattr_name a)])
    by (destruct a; vm_compute; reflexivity).
  rewrite H. cbn [map]. rewrite denote_num. cbn [denote]. rewrite denote_app, !denote_lit. reflexivity.
Qed.

(** * Different attributes have different names *)
Lemma digits_cut d : forall d' c c' r r', all_digits d = true -> all_digits d' = true -> is_digit c = false -> is_digit c' = false ->
  (d ++ String c r = d' ++ String c' r')%string -> d = d' /\ String c r = String c' r'.
Proof.
  induction d as [|x d IH]; intros d' c c' r r' D D' N N' H; destruct d' as [|y d']; cbn in *.
  - auto.
  - injection H as -> _. apply andb_true_iff in D' as []. congruence.
  - injection H as -> _. apply andb_true_iff in D as []. congruence.
  - injection H as -> H. apply andb_true_iff in D as [_ D]. apply andb_true_iff in D' as [_ D'].
    destruct (IH d' c c' r r' D D' N N' H) as [-> E]. auto.
Qed.
Lemma dec_cut m n c c' r r' : is_digit c = false -> is_digit c' = false ->
  (dec m ++ String c r = dec n ++ String c' r')%string -> m = n /\ String c r = String c' r'.
Proof.
  intros N N' H. destruct (digits_cut _ _ _ _ _ _ (digits_dec m) (digits_dec n) N N' H) as [E R]. auto using dec_inj.
Qed.
Lemma names_injective p p' : documented_name p = documented_name p' -> p = p'.
Proof.
  intros H.
  assert (C : forall i i' c c' r r', ("sys_" ++ dec i ++ String c r = "sys_" ++ dec i' ++ String c' r')%string ->
    is_digit c = false -> is_digit c' = false -> i = i' /\ String c r = String c' r').
  { intros i i' c c' r r' E N N'. cbn [append] in E. injection E as E. now apply dec_cut in E. }
  destruct p as [i|i j|i j t a|i j|i j t a], p' as [i'|i' j'|i' j' t' a'|i' j'|i' j' t' a']; cbn [documented_name] in H;
    apply C in H as [-> H]; try reflexivity; cbn [append] in H; try discriminate H; injection H as H;
    apply dec_cut in H as [-> H]; try reflexivity;
    try destruct t; try destruct a; cbn in H; try discriminate H; try destruct t'; try destruct a'; cbn in H; try discriminate H; reflexivity.
Qed.
Lemma steps_injective p p' : steps p = steps p' -> p = p'.
Proof.
  destruct p as [i|i j|i j t a|i j|i j t a], p' as [i'|i' j'|i' j' t' a'|i' j'|i' j' t' a']; cbn [steps]; intros H; try discriminate H;
    [injection H as Ei | injection H as Ei Ej | injection H as Ei Ej Et Ea | injection H as Ei Ej | injection H as Ei Ej Et Ea];
    apply dec_inj in Ei; try apply dec_inj in Ej; subst; try reflexivity;
    destruct t, t'; try discriminate Et; destruct a, a'; try discriminate Ea; reflexivity.
Qed.

(** * The names of a list of spin systems *)
Definition code_name (p : path) : string := str_encode (python_text p).
Definition entry (parent : string) (kx : string * pv) : list string :=
  if member (fst kx) EXCLUDE then []
  else match snd kx with
       | PNone => []
       | PDict _ | PList _ => traverse (snd kx) (str_encode (parent ++ "." ++ fst kx))
       | _ => [str_encode (parent ++ "." ++ fst kx)]
       end.
Fixpoint each_name (parent : string) (l : list pv) (i : nat) : list string :=
  match l with [] => [] | x :: r => traverse x (str_encode (parent ++ "[" ++ dec i ++ "]")) ++ each_name parent r (S i) end.
Lemma traverse_dict d parent : traverse (PDict d) parent = flat_map (entry parent) d.
Proof.
  cbn [traverse]. induction d as [|[k x] d IH]; [reflexivity|]. cbn [flat_map]. rewrite <- IH. unfold entry. cbn [fst snd].
  destruct x; reflexivity.
Qed.
Lemma traverse_list l parent : traverse (PList l) parent = each_name parent l 0.
Proof.
  cbn [traverse]. generalize 0%nat. induction l as [|x l IH]; intros i; [reflexivity|]. cbn [each_name]. now rewrite IH.
Qed.
Lemma tens_names mk t parent : (forall a, str_encode (parent ++ "." ++ tattr_name a) = code_name (mk a)) ->
  traverse (tens_dict t) parent = map (fun pq => code_name (fst pq)) (tens_paths mk t).
Proof.
  intros H. unfold tens_dict. rewrite traverse_dict. unfold tens_paths.
  pose proof (H Zeta) as H1. pose proof (H Cq) as H2. pose proof (H D) as H3. pose proof (H Eta) as H4. pose proof (H Alpha) as H5.
  pose proof (H Beta) as H6. pose proof (H Gamma) as H7. cbn [tattr_name] in *. rewrite !map_app.
  unfold entry. cbn [flat_map fst snd]. 
  change (member "property_units" EXCLUDE) with true. change (member "zeta" EXCLUDE) with false. change (member "Cq" EXCLUDE) with false.
  change (member "D" EXCLUDE) with false. change (member "eta" EXCLUDE) with false. change (member "alpha" EXCLUDE) with false.
  change (member "beta" EXCLUDE) with false. change (member "gamma" EXCLUDE) with false. cbv iota.
  assert (O : forall (o : option Q) k b, str_encode (parent ++ "." ++ k) = code_name (mk b) ->
    match opt PFloat o with PNone => [] | PDict _ | PList _ => traverse (opt PFloat o) (str_encode (parent ++ "." ++ k)) | _ => [str_encode (parent ++ "." ++ k)] end =
    map (fun pq => code_name (fst pq)) (present o (fun q => [(mk b, q)]))).
  { intros o k b E. destruct o; cbn [opt present map fst]; [now rewrite E | reflexivity]. }
  rewrite (O _ _ Zeta H1), (O _ _ Cq H2), (O _ _ D H3), (O _ _ Eta H4), (O _ _ Alpha H5), (O _ _ Beta H6), (O _ _ Gamma H7).
  rewrite app_nil_r. cbn [app]. reflexivity.
Qed.
Lemma opt_tens_names mk t parent : (forall a, str_encode (parent ++ "." ++ tattr_name a) = code_name (mk a)) ->
  match opt tens_dict t with PNone => [] | PDict _ | PList _ => traverse (opt tens_dict t) parent | _ => [parent] end =
  map (fun pq => code_name (fst pq)) (present t (tens_paths mk)).
Proof. intros H. destruct t as [t|]; [|reflexivity]. cbn [opt present]. rewrite <- (tens_names mk t parent H). reflexivity. Qed.

Definition tP (i : nat) := lit "sys_" ++ [Num i] ++ lit "]".
Definition tS (i j : nat) := lit "sys_" ++ [Num i] ++ lit "_site_" ++ [Num j] ++ lit "]".
Definition tC (i j : nat) := lit "sys_" ++ [Num i] ++ lit "_coupling_" ++ [Num j] ++ lit "]".
Lemma app_tok ts k : (denote ts ++ k)%string = denote (ts ++ lit k).
Proof. now rewrite denote_app, denote_lit. Qed.
Ltac toks := unfold code_name; rewrite ?text_tok; rewrite ?app_tok, ?encode_tok, ?app_tok, ?encode_tok; apply (f_equal denote); vm_compute; reflexivity.

Section Names.
  Variables (units : dict) (name label description pathways : pv).
  Lemma site_names i j s : traverse (site_dict units name label description s) (denote (tS i j)) =
    map (fun pq => code_name (fst pq)) (site_paths i j s).
  Proof.
    unfold site_dict, texts, site_paths. rewrite traverse_dict. cbn [app flat_map]. unfold entry. cbn [fst snd].
    change (member "property_units" EXCLUDE) with true. change (member "name" EXCLUDE) with true. change (member "label" EXCLUDE) with true.
    change (member "description" EXCLUDE) with true. change (member "isotope" EXCLUDE) with true.
    change (member "isotropic_chemical_shift" EXCLUDE) with false. change (member "shielding_symmetric" EXCLUDE) with false.
    change (member "shielding_antisymmetric" EXCLUDE) with false. change (member "quadrupolar" EXCLUDE) with false. cbv iota.
    rewrite (opt_tens_names (SiteT i j ShieldSym)), (opt_tens_names (SiteT i j ShieldAnti)), (opt_tens_names (SiteT i j Quadrupolar)).
    - cbn [map fst app]. rewrite !map_app, app_nil_r. f_equal. toks.
    - intros a. destruct a; toks.
    - intros a. destruct a; toks.
    - intros a. destruct a; toks.
  Qed.
  Lemma coup_names i j c : traverse (coup_dict units name label description c) (denote (tC i j)) =
    map (fun pq => code_name (fst pq)) (coup_paths i j c).
  Proof.
    unfold coup_dict, texts, coup_paths. rewrite traverse_dict. cbn [app flat_map]. unfold entry. cbn [fst snd].
    change (member "property_units" EXCLUDE) with true. change (member "name" EXCLUDE) with true. change (member "label" EXCLUDE) with true.
    change (member "description" EXCLUDE) with true. change (member "site_index" EXCLUDE) with false.
    change (member "isotropic_j" EXCLUDE) with false. change (member "j_symmetric" EXCLUDE) with false.
    change (member "j_antisymmetric" EXCLUDE) with false. change (member "dipolar" EXCLUDE) with false. cbv iota.
    rewrite (opt_tens_names (CoupT i j JSym)), (opt_tens_names (CoupT i j JAnti)), (opt_tens_names (CoupT i j Dipolar)).
    - rewrite traverse_list. cbn [each_name traverse app]. cbn [map fst app]. rewrite !map_app, app_nil_r. f_equal. toks.
    - intros a. destruct a; toks.
    - intros a. destruct a; toks.
    - intros a. destruct a; toks.
  Qed.
  Lemma each_site i l : forall j, each_name (denote (tP i ++ lit ".sites")) (map (site_dict units name label description) l) j =
    map (fun pq => code_name (fst pq)) (each_from (site_paths i) j l).
  Proof.
    induction l as [|s l IH]; intros j; [reflexivity|]. cbn [map each_name each_from]. rewrite map_app, <- IH, <- site_names.
    do 2 f_equal. rewrite <- (denote_num j), <- (denote_lit "[") at 1. rewrite <- (denote_lit "]") at 1. rewrite <- !denote_app, encode_tok.
    apply (f_equal denote). vm_compute. reflexivity.
  Qed.
  Lemma each_coup i l : forall j, each_name (denote (tP i ++ lit ".couplings")) (map (coup_dict units name label description) l) j =
    map (fun pq => code_name (fst pq)) (each_from (coup_paths i) j l).
  Proof.
    induction l as [|s l IH]; intros j; [reflexivity|]. cbn [map each_name each_from]. rewrite map_app, <- IH, <- coup_names.
    do 2 f_equal. rewrite <- (denote_num j), <- (denote_lit "[") at 1. rewrite <- (denote_lit "]") at 1. rewrite <- !denote_app, encode_tok.
    apply (f_equal denote). vm_compute. reflexivity.
  Qed.
  Lemma sys_names i y : traverse (sys_dict units name label description pathways y) (denote (tP i)) =
    map (fun pq => code_name (fst pq)) (sys_paths i y).
  Proof.
    unfold sys_dict, texts, sys_paths. rewrite traverse_dict. cbn [app flat_map]. unfold entry. cbn [fst snd].
    change (member "property_units" EXCLUDE) with true. change (member "name" EXCLUDE) with true. change (member "label" EXCLUDE) with true.
    change (member "description" EXCLUDE) with true. change (member "transition_pathways" EXCLUDE) with true.
    change (member "sites" EXCLUDE) with false. change (member "couplings" EXCLUDE) with false.
    change (member "abundance" EXCLUDE) with false. cbv iota. rewrite traverse_list.
    assert (E1 : str_encode (denote (tP i) ++ "." ++ "sites") = denote (tP i ++ lit ".sites")) by toks.
    assert (E2 : str_encode (denote (tP i) ++ "." ++ "couplings") = denote (tP i ++ lit ".couplings")) by toks.
    assert (E3 : str_encode (denote (tP i) ++ "." ++ "abundance") = code_name (Abundance i)) by toks.
    rewrite E1, E2, E3, each_site, !map_app. cbn [app map fst]. f_equal.
    destruct (y_couplings y) as [l|]; [|reflexivity]. cbn [opt present]. rewrite traverse_list, each_coup. reflexivity.
  Qed.
  Lemma all_names systems : traverse (PList (map (sys_dict units name label description pathways) systems)) "spin_systems" =
    map (fun pq => code_name (fst pq)) (all_paths systems).
  Proof.
    rewrite traverse_list. unfold all_paths. generalize 0%nat. induction systems as [|y l IH]; intros i; [reflexivity|].
    cbn [map each_name each_from]. rewrite map_app, <- IH, <- sys_names. do 2 f_equal.
    rewrite <- (denote_num i), <- (denote_lit "[") at 1. rewrite <- (denote_lit "]") at 1. rewrite <- (denote_lit "spin_systems").
    rewrite <- !denote_app, encode_tok. apply (f_equal denote). vm_compute. reflexivity.
  Qed.
End Names.

(** * Reading and writing *)
Lemma list_set_same {A} (l : list A) n v x : nth_error l n = Some x -> nth_error (list_set l n v) n = Some v.
Proof. revert n. induction l as [|y l IH]; intros [|n] H; cbn in *; try discriminate; auto. Qed.
Lemma list_set_other {A} (l : list A) n m v : n <> m -> nth_error (list_set l n v) m = nth_error l m.
Proof. revert n m. induction l as [|y l IH]; intros [|n] [|m] H; cbn; try congruence; auto. Qed.

Inductive diverge : list string -> list string -> Prop :=
| dv_here a b r r' : a <> b -> (isnumeric a = true -> isnumeric b = true -> int_of a <> int_of b) -> diverge (a :: r) (b :: r')
| dv_next a r r' : diverge r r' -> diverge (a :: r) (a :: r').

Lemma set_cons obj a b r v : set_path obj (a :: b :: r) v =
  (let* x := get_one obj a in let* y := set_path x (b :: r) v in
   Ok (match obj with PList l => PList (list_set l (int_of a) y) | PDict d => PDict (dict_set d a y) | _ => obj end)).
Proof. reflexivity. Qed.
Lemma get_one_written obj a x y : get_one obj a = Ok x ->
  get_one (match obj with PList l => PList (list_set l (int_of a) y) | PDict d => PDict (dict_set d a y) | _ => obj end) a = Ok y.
Proof.
  unfold get_one. destruct (isnumeric a) eqn:N; destruct obj as [|?|?|?|l|l]; try discriminate.
  - destruct (nth_error l (int_of a)) eqn:E; [|discriminate]. intros _. now rewrite (list_set_same _ _ _ _ E).
  - destruct (dict_lookup l a) eqn:E; [|discriminate]. intros _. now rewrite lookup_set, String.eqb_refl.
Qed.
Lemma get_one_elsewhere obj a b x y : get_one obj a = Ok x -> a <> b -> (isnumeric a = true -> isnumeric b = true -> int_of a <> int_of b) ->
  get_one (match obj with PList l => PList (list_set l (int_of a) y) | PDict d => PDict (dict_set d a y) | _ => obj end) b = get_one obj b.
Proof.
  unfold get_one. intros H N M. destruct (isnumeric a) eqn:Na; destruct obj as [|?|?|?|l|l]; try discriminate; destruct (isnumeric b) eqn:Nb; try reflexivity.
  - now rewrite list_set_other by auto.
  - apply String.eqb_neq in N. now rewrite lookup_set, N.
Qed.
Lemma set_then_get a : forall t v t', set_path t a v = Ok t' -> isnumeric (last a "") = false -> get_path t' a = Ok v.
Proof.
  induction a as [|x a IH]; intros t v t' H N; [discriminate|]. destruct a as [|b r].
  - cbn in *. unfold set_attr in H. destruct t as [|?|?|?|l|l]; try discriminate. destruct (dict_lookup l x); [|discriminate]. injection H as <-.
    unfold get_one. rewrite N, lookup_set, String.eqb_refl. reflexivity.
  - rewrite set_cons in H. destruct (get_one t x) as [o|e] eqn:G; [|discriminate]. cbn [bind] in H.
    destruct (set_path o (b :: r) v) as [y|e] eqn:Es; [|discriminate]. cbn [bind] in H. injection H as <-.
    change (get_path ?t (x :: ?p)) with (let* z := get_one t x in get_path z p).
    rewrite (get_one_written t x o y G). cbn [bind]. apply (IH o v y Es N).
Qed.
Lemma set_elsewhere a b : diverge a b -> forall t v t', set_path t a v = Ok t' -> get_path t' b = get_path t b.
Proof.
  induction 1 as [a b r r' N M|a r r' Dv IH]; intros t v t' H.
  - destruct r as [|c r].
    + cbn [set_path] in H. unfold set_attr in H. destruct t as [|?|?|?|l|l]; try discriminate. destruct (dict_lookup l a); [|discriminate].
      injection H as <-. cbn [get_path]. unfold get_one. destruct (isnumeric b); [reflexivity|]. apply String.eqb_neq in N.
      now rewrite lookup_set, N.
    + rewrite set_cons in H. destruct (get_one t a) as [o|e] eqn:G; [|discriminate]. cbn [bind] in H.
      destruct (set_path o (c :: r) v) as [y|e] eqn:Es; [|discriminate]. cbn [bind] in H. injection H as <-.
      change (get_path ?t (b :: ?p)) with (let* z := get_one t b in get_path z p).
      now rewrite (get_one_elsewhere t a b o y G N M).
  - destruct r as [|c r]; [inversion Dv|]. rewrite set_cons in H. destruct (get_one t a) as [o|e] eqn:G; [|discriminate]. cbn [bind] in H.
    destruct (set_path o (c :: r) v) as [y|e] eqn:Es; [|discriminate]. cbn [bind] in H. injection H as <-.
    change (get_path ?t (a :: ?p)) with (let* z := get_one t a in get_path z p).
    rewrite (get_one_written t a o y G), G. cbn [bind]. apply (IH o v y Es).
Qed.
Lemma set_succeeds a : forall t w v, get_path t a = Ok w -> a <> [] -> isnumeric (last a "") = false -> exists t', set_path t a v = Ok t'.
Proof.
  induction a as [|x a IH]; intros t w v H Ne N; [congruence|]. cbn [get_path] in H.
  destruct (get_one t x) as [o|e] eqn:G; [|discriminate]. cbn [bind] in H. destruct a as [|b r].
  - cbn [last] in N. unfold get_one in G. rewrite N in G. destruct t as [|?|?|?|l|l]; try discriminate. cbn [set_path]. unfold set_attr.
    destruct (dict_lookup l x); [|discriminate]. eexists; reflexivity.
  - destruct (IH o w v H ltac:(discriminate) N) as [y E]. rewrite set_cons, G. cbn [bind]. rewrite E. cbn [bind]. eexists; reflexivity.
Qed.

Lemma dv_num i j r r' : (i = j -> diverge r r') -> diverge (dec i :: r) (dec j :: r').
Proof.
  intros H. destruct (Nat.eq_dec i j) as [->|N]; [apply dv_next; auto|]. apply dv_here.
  - intros E. apply dec_inj in E. auto.
  - intros _ _. now rewrite !int_dec.
Qed.
Lemma dv_word a b r r' : isnumeric a = false -> (a = b -> diverge r r') -> diverge (a :: r) (b :: r').
Proof.
  intros Na H. destruct (string_dec a b) as [<-|N]; [apply dv_next; auto|]. apply dv_here; [exact N | congruence].
Qed.
Lemma stensor_word t : isnumeric (stensor_name t) = false. Proof. destruct t; reflexivity. Qed.
Lemma ctensor_word t : isnumeric (ctensor_name t) = false. Proof. destruct t; reflexivity. Qed.
Lemma tattr_word a : isnumeric (tattr_name a) = false. Proof. destruct a; reflexivity. Qed.
Lemma stensor_inj t t' : stensor_name t = stensor_name t' -> t = t'. Proof. destruct t, t'; intros; discriminate || reflexivity. Qed.
Lemma ctensor_inj t t' : ctensor_name t = ctensor_name t' -> t = t'. Proof. destruct t, t'; intros; discriminate || reflexivity. Qed.
Lemma tattr_inj a a' : tattr_name a = tattr_name a' -> a = a'. Proof. destruct a, a'; intros; discriminate || reflexivity. Qed.
Lemma steps_diverge p p' : p <> p' -> diverge (steps p) (steps p').
Proof.
  intros N. destruct p as [i|i j|i j t a|i j|i j t a], p' as [i'|i' j'|i' j' t' a'|i' j'|i' j' t' a']; unfold steps;
    (apply dv_word; [reflexivity|]; intros _; apply dv_num; intros ->); try congruence;
    (apply dv_word; [reflexivity|]; intros W; try discriminate W; clear W); (apply dv_num; intros ->); try congruence.
  all: apply dv_word; [first [reflexivity | apply stensor_word | apply ctensor_word]|]; intros W.
  - destruct t'; discriminate W.
  - destruct t; discriminate W.
  - apply stensor_inj in W. subst. apply dv_word; [apply tattr_word|]. intros W. apply tattr_inj in W. congruence.
  - destruct t'; discriminate W.
  - destruct t; discriminate W.
  - apply ctensor_inj in W. subst. apply dv_word; [apply tattr_word|]. intros W. apply tattr_inj in W. congruence.
Qed.
Lemma steps_last p : isnumeric (last (steps p) "") = false.
Proof. destruct p as [i|i j|i j t a|i j|i j t a]; try reflexivity; destruct a; reflexivity. Qed.
Lemma steps_nonempty p : steps p <> [].
Proof. destruct p; discriminate. Qed.

(** * The value of a present attribute *)
Lemma in_each {A} (f : nat -> A -> list (path * Q)) x l : forall i, In x (each_from f i l) -> exists k y, nth_error l k = Some y /\ In x (f (i + k)%nat y).
Proof.
  induction l as [|y l IH]; intros i H; [destruct H|]. cbn [each_from] in H. apply in_app_iff in H as [H|H].
  - exists 0%nat, y. rewrite Nat.add_0_r. auto.
  - destruct (IH _ H) as [k [z [E I]]]. exists (S k), z. split; [exact E|]. now replace (i + S k)%nat with (S i + k)%nat by lia.
Qed.
Lemma tens_get mk t p q : In (p, q) (tens_paths mk t) -> exists a, p = mk a /\ get_path (tens_dict t) [tattr_name a] = Ok (PFloat q).
Proof.
  unfold tens_paths. rewrite !in_app_iff.
  assert (P : forall (o : option Q) a, In (p, q) (present o (fun q => [(mk a, q)])) -> o = Some q /\ p = mk a).
  { intros o a H. destruct o as [z|]; cbn in H; [|contradiction]. destruct H as [H|[]]. injection H as <- <-. auto. }
  intros [H|[H|[H|[H|[H|[H|H]]]]]]; apply P in H as [E ->]; eexists; (split; [reflexivity|]); destruct t; cbn in E; subst; reflexivity.
Qed.
Lemma get_listed {A} (f : A -> pv) d key l k y r : isnumeric key = false -> dict_lookup d key = Some (PList (map f l)) -> nth_error l k = Some y ->
  get_path (PDict d) (key :: dec k :: r) = get_path (f y) r.
Proof.
  intros N L E. cbn [get_path]. unfold get_one at 1. rewrite N, L. cbn [bind]. unfold get_one. rewrite numeric_dec, int_dec.
  rewrite (map_nth_error f _ _ E). reflexivity.
Qed.
Section Values.
  Variables (units : dict) (name label description pathways : pv).
  Notation site := (site_dict units name label description).
  Notation coup := (coup_dict units name label description).
  Notation sys := (sys_dict units name label description pathways).
  Lemma sub_get d key t r : isnumeric key = false -> dict_lookup d key = Some (opt tens_dict (Some t)) ->
    get_path (PDict d) (key :: r) = get_path (tens_dict t) r.
  Proof. intros N L. cbn [get_path]. unfold get_one. now rewrite N, L. Qed.
  Lemma site_get i j s p q : In (p, q) (site_paths i j s) ->
    (p = Shift i j /\ q = s_shift s) \/ exists t a, p = SiteT i j t a /\ get_path (site s) [stensor_name t; tattr_name a] = Ok (PFloat q).
  Proof.
    unfold site_paths. intros [H|H]; [injection H as <- <-; auto|]. right. apply in_app_iff in H as [H|H]; [|apply in_app_iff in H as [H|H]].
    - destruct (s_sym s) as [t|] eqn:E; [|contradiction]. apply tens_get in H as [a [-> G]]. exists ShieldSym, a. split; [reflexivity|].
      unfold site_dict. rewrite E. erewrite sub_get; [exact G | reflexivity | reflexivity].
    - destruct (s_anti s) as [t|] eqn:E; [|contradiction]. apply tens_get in H as [a [-> G]]. exists ShieldAnti, a. split; [reflexivity|].
      unfold site_dict. rewrite E. erewrite sub_get; [exact G | reflexivity | reflexivity].
    - destruct (s_quad s) as [t|] eqn:E; [|contradiction]. apply tens_get in H as [a [-> G]]. exists Quadrupolar, a. split; [reflexivity|].
      unfold site_dict. rewrite E. erewrite sub_get; [exact G | reflexivity | reflexivity].
  Qed.
  Lemma coup_get i j c p q : In (p, q) (coup_paths i j c) ->
    (p = IsoJ i j /\ q = c_j c) \/ exists t a, p = CoupT i j t a /\ get_path (coup c) [ctensor_name t; tattr_name a] = Ok (PFloat q).
  Proof.
    unfold coup_paths. intros [H|H]; [injection H as <- <-; auto|]. right. apply in_app_iff in H as [H|H]; [|apply in_app_iff in H as [H|H]].
    - destruct (c_sym c) as [t|] eqn:E; [|contradiction]. apply tens_get in H as [a [-> G]]. exists JSym, a. split; [reflexivity|].
      unfold coup_dict. rewrite E. erewrite sub_get; [exact G | reflexivity | reflexivity].
    - destruct (c_anti c) as [t|] eqn:E; [|contradiction]. apply tens_get in H as [a [-> G]]. exists JAnti, a. split; [reflexivity|].
      unfold coup_dict. rewrite E. erewrite sub_get; [exact G | reflexivity | reflexivity].
    - destruct (c_dip c) as [t|] eqn:E; [|contradiction]. apply tens_get in H as [a [-> G]]. exists Dipolar, a. split; [reflexivity|].
      unfold coup_dict. rewrite E. erewrite sub_get; [exact G | reflexivity | reflexivity].
  Qed.
  (** What a simulator holds at a present attribute, and the list just above it. *)
  Lemma present_get d systems p q : dict_lookup d "spin_systems" = Some (PList (map sys systems)) -> In (p, q) (all_paths systems) ->
    get_path (PDict d) (steps p) = Ok (PFloat q) /\
    match p with
    | Abundance i => exists y, nth_error systems i = Some y /\ q = y_abundance y
    | Shift i j | SiteT i j _ _ => exists l, get_path (PDict d) ["spin_systems"; dec i; "sites"] = Ok (PList l)
    | IsoJ i j | CoupT i j _ _ => exists l, get_path (PDict d) ["spin_systems"; dec i; "couplings"] = Ok (PList l)
    end.
  Proof.
    intros L H. apply in_each in H as [i [y [Ey H]]]. cbn [Nat.add] in H.
    assert (U : forall r, get_path (PDict d) ("spin_systems" :: dec i :: r) = get_path (sys y) r)
      by (intros r; now apply (get_listed sys d "spin_systems" systems)).
    unfold sys_paths in H. apply in_app_iff in H as [H|H]; [|apply in_app_iff in H as [H|H]].
    - apply in_each in H as [j [s [Es H]]]. cbn [Nat.add] in H.
      assert (V : forall r, get_path (sys y) ("sites" :: dec j :: r) = get_path (site s) r)
        by (intros r; unfold sys_dict; apply (get_listed site _ "sites" (y_sites y)); auto).
      assert (W : exists l, get_path (PDict d) ["spin_systems"; dec i; "sites"] = Ok (PList l)) by (rewrite U; eexists; reflexivity).
      apply site_get in H as [[-> ->]|[t [a [-> G]]]]; cbn [steps]; rewrite U, V; split; auto.
    - destruct (y_couplings y) as [cs|] eqn:Ec; [|contradiction]. cbn [present] in H. apply in_each in H as [j [c [Es H]]]. cbn [Nat.add] in H.
      assert (V : forall r, get_path (sys y) ("couplings" :: dec j :: r) = get_path (coup c) r)
        by (intros r; unfold sys_dict; rewrite Ec; cbn [opt]; apply (get_listed coup _ "couplings" cs); auto).
      assert (W : exists l, get_path (PDict d) ["spin_systems"; dec i; "couplings"] = Ok (PList l))
        by (rewrite U; unfold sys_dict; rewrite Ec; eexists; reflexivity).
      apply coup_get in H as [[-> ->]|[t [a [-> G]]]]; cbn [steps]; rewrite U, V; split; auto.
    - destruct H as [H|[]]. injection H as <- <-. cbn [steps]. rewrite U. split; [reflexivity | eauto].
  Qed.
End Values.

Lemma update_ok values : forall sim, NoDup (map fst values) ->
  (forall p v, In (p, v) values -> decodable p /\ exists w, get_path sim (steps p) = Ok w) ->
  exists sim', update_simulator sim (map (fun pv => (documented_name (fst pv), snd pv)) values) = Ok sim' /\
    (forall p v, In (p, v) values -> get_path sim' (steps p) = Ok (PFloat v)) /\
    forall p, ~ In p (map fst values) -> get_path sim' (steps p) = get_path sim (steps p).
Proof.
  induction values as [|[p v] r IH]; intros sim N H.
  - exists sim. cbn. repeat split; auto. contradiction.
  - cbn [map fst] in N. inversion N as [|? ? Np Nr]; subst. destruct (H p v (or_introl eq_refl)) as [Dp [w G]].
    destruct (set_succeeds (steps p) sim w (PFloat v) G (steps_nonempty p) (steps_last p)) as [s1 E1].
    destruct (IH s1 Nr) as [s2 [E2 [A B]]].
    + intros p' v' I. destruct (H p' v' (or_intror I)) as [Dp' [w' G']]. split; [exact Dp'|]. exists w'.
      rewrite (set_elsewhere _ _ (steps_diverge p p' ltac:(intros ->; apply Np; change p' with (fst (p', v')); now apply in_map)) _ _ _ E1). exact G'.
    + exists s2. split; [|split].
      * unfold update_simulator in *. cbn [map for_each fst snd]. unfold set_simulator_object_value. rewrite (decode_documented p Dp), E1.
        cbn [bind]. exact E2.
      * intros p' v' [I|I]; [|now apply A]. injection I as <- <-. rewrite (B p Np). apply (set_then_get _ _ _ _ E1 (steps_last p)).
      * intros p' I. cbn [map fst In] in I. rewrite (B p' ltac:(tauto)). apply (set_elsewhere (steps p) (steps p') (steps_diverge p p' ltac:(tauto)) _ _ _ E1).
Qed.

(** * Distinct attributes are listed once *)
Definition arank (a : tattr) : nat := match a with Zeta => 0 | Cq => 1 | D => 2 | Eta => 3 | Alpha => 4 | Beta => 5 | Gamma => 6 end.
Definition increasing (rank : path -> nat) (lo hi : nat) (l : list (path * Q)) : Prop :=
  NoDup (map fst l) /\ Forall (fun x => lo <= rank (fst x) < hi)%nat l.
Lemma increasing_nil rank lo hi : increasing rank lo hi [].
Proof. split; constructor. Qed.
Lemma increasing_app rank a b c l l' : (a <= b)%nat -> (b <= c)%nat -> increasing rank a b l -> increasing rank b c l' -> increasing rank a c (l ++ l').
Proof.
  intros Hab Hbc [N F] [N' F']. split.
  - rewrite map_app. rewrite Forall_forall in F, F'. clear Hab Hbc. induction l as [|x l IH]; [exact N'|]. cbn [map app] in *.
    inversion N as [|? ? Nx Nl]; subst. constructor; [|apply IH; auto; intros; apply F; now right]. rewrite in_app_iff. intros [I|I]; [auto|].
    apply in_map_iff in I as [y [E I]]. pose proof (F x (or_introl eq_refl)). pose proof (F' y I). rewrite E in *. lia.
  - apply Forall_app. split; eapply Forall_impl; try eassumption; cbn; intros; lia.
Qed.
Lemma increasing_option rank lo (o : option Q) p : rank p = lo -> increasing rank lo (lo + 1) (present o (fun q => [(p, q)])).
Proof.
  intros E. destruct o; cbn [present]; [|apply increasing_nil]. split; [repeat constructor; auto|]. repeat constructor; cbn; lia.
Qed.
Lemma increasing_weaken rank a b a' b' l : (a' <= a)%nat -> (b <= b')%nat -> increasing rank a b l -> increasing rank a' b' l.
Proof. intros H H' [N F]. split; [exact N|]. eapply Forall_impl; [|exact F]. cbn. intros; lia. Qed.
Lemma increasing_tens rank lo mk t : (forall a, rank (mk a) = lo + arank a)%nat -> increasing rank lo (lo + 7) (tens_paths mk t).
Proof.
  intros H. unfold tens_paths.
  pose proof (H Zeta) as H0. pose proof (H Cq) as H1. pose proof (H D) as H2. pose proof (H Eta) as H3. pose proof (H Alpha) as H4.
  pose proof (H Beta) as H5. pose proof (H Gamma) as H6. cbn [arank] in *.
  apply (increasing_app rank _ (lo + 0 + 1)); [lia | lia | apply (increasing_weaken rank (lo + 0) (lo + 0 + 1)); [lia | lia | apply increasing_option; auto] |].
  apply (increasing_app rank _ (lo + 1 + 1)); [lia | lia | apply (increasing_weaken rank (lo + 1) (lo + 1 + 1)); [lia | lia | apply increasing_option; auto] |].
  apply (increasing_app rank _ (lo + 2 + 1)); [lia | lia | apply (increasing_weaken rank (lo + 2) (lo + 2 + 1)); [lia | lia | apply increasing_option; auto] |].
  apply (increasing_app rank _ (lo + 3 + 1)); [lia | lia | apply (increasing_weaken rank (lo + 3) (lo + 3 + 1)); [lia | lia | apply increasing_option; auto] |].
  apply (increasing_app rank _ (lo + 4 + 1)); [lia | lia | apply (increasing_weaken rank (lo + 4) (lo + 4 + 1)); [lia | lia | apply increasing_option; auto] |].
  apply (increasing_app rank _ (lo + 5 + 1)); [lia | lia | apply (increasing_weaken rank (lo + 5) (lo + 5 + 1)); [lia | lia | apply increasing_option; auto] |].
  apply (increasing_weaken rank (lo + 6) (lo + 6 + 1)); [lia | lia | apply increasing_option; auto].
Qed.
Lemma increasing_present rank lo hi (o : option tens) f : (forall t, increasing rank lo hi (f t)) -> increasing rank lo hi (present o f).
Proof. intros H. destruct o; [apply H | apply increasing_nil]. Qed.
Lemma increasing_each {A} rank (f : nat -> A -> list (path * Q)) : (forall i x, increasing rank i (i + 1) (f i x)) ->
  forall l i, increasing rank i (i + length l) (each_from f i l).
Proof.
  intros H. induction l as [|x l IH]; intros i; [apply increasing_nil|]. cbn [each_from length].
  apply (increasing_app rank _ (i + 1)); [lia | lia | apply H|]. replace (i + S (length l))%nat with (S i + length l)%nat by lia.
  replace (i + 1)%nat with (S i) by lia. apply IH.
Qed.
Definition rank_in (p : path) : nat :=
  match p with
  | Abundance _ => 0 | Shift _ _ | IsoJ _ _ => 0
  | SiteT _ _ ShieldSym a | CoupT _ _ JSym a => 1 + arank a
  | SiteT _ _ ShieldAnti a | CoupT _ _ JAnti a => 8 + arank a
  | SiteT _ _ Quadrupolar a | CoupT _ _ Dipolar a => 15 + arank a
  end.
Definition rank_sub (p : path) : nat := match p with Abundance _ => 0 | Shift _ j | IsoJ _ j | SiteT _ j _ _ | CoupT _ j _ _ => j end.
Definition rank_sort (p : path) : nat := match p with Shift _ _ | SiteT _ _ _ _ => 0 | IsoJ _ _ | CoupT _ _ _ _ => 1 | Abundance _ => 2 end.
Definition rank_sys (p : path) : nat := match p with Abundance i | Shift i _ | IsoJ i _ | SiteT i _ _ _ | CoupT i _ _ _ => i end.
Lemma re_rank rank rank' a b a' b' l : increasing rank a b l -> (forall x, In x l -> a' <= rank' (fst x) < b')%nat -> increasing rank' a' b' l.
Proof. intros [N _] H. split; [exact N|]. now apply Forall_forall. Qed.
Lemma tens_in mk t x : In x (tens_paths mk t) -> exists a, fst x = mk a.
Proof.
  unfold tens_paths. rewrite !in_app_iff.
  assert (P : forall (o : option Q) a, In x (present o (fun q => [(mk a, q)])) -> exists a, fst x = mk a).
  { intros o a H. destruct o as [z|]; cbn in H; [|contradiction]. destruct H as [<-|[]]. eexists; reflexivity. }
  intros [H|[H|[H|[H|[H|[H|H]]]]]]; now apply P in H.
Qed.
Lemma present_in {A} (o : option A) f x : In x (present o f) -> exists a, o = Some a /\ In x (f a).
Proof. destruct o; cbn; [eauto | contradiction]. Qed.
Lemma site_in i j s x : In x (site_paths i j s) -> rank_sub (fst x) = j /\ rank_sort (fst x) = 0%nat /\ rank_sys (fst x) = i.
Proof.
  unfold site_paths. intros [<-|H]; [cbn; auto|]. rewrite !in_app_iff in H.
  destruct H as [H|[H|H]]; apply present_in in H as [t [_ H]]; apply tens_in in H as [a ->]; cbn; auto.
Qed.
Lemma coup_in i j s x : In x (coup_paths i j s) -> rank_sub (fst x) = j /\ rank_sort (fst x) = 1%nat /\ rank_sys (fst x) = i.
Proof.
  unfold coup_paths. intros [<-|H]; [cbn; auto|]. rewrite !in_app_iff in H.
  destruct H as [H|[H|H]]; apply present_in in H as [t [_ H]]; apply tens_in in H as [a ->]; cbn; auto.
Qed.
Lemma site_increasing i j s : increasing rank_sub j (j + 1) (site_paths i j s).
Proof.
  eapply (re_rank rank_in _ 0 22); [|intros x H; apply site_in in H; lia]. unfold site_paths.
  change ((Shift i j, s_shift s) :: ?l) with ([(Shift i j, s_shift s)] ++ l).
  apply (increasing_app _ _ 1); [lia | lia | split; [repeat constructor; auto | repeat constructor; cbn; lia] |].
  apply (increasing_app _ _ 8); [lia | lia | apply increasing_present; intros t; apply (increasing_tens _ 1); reflexivity |].
  apply (increasing_app _ _ 15); [lia | lia | apply increasing_present; intros t; apply (increasing_tens _ 8); reflexivity |].
  apply increasing_present; intros t; apply (increasing_tens _ 15); reflexivity.
Qed.
Lemma coup_increasing i j s : increasing rank_sub j (j + 1) (coup_paths i j s).
Proof.
  eapply (re_rank rank_in _ 0 22); [|intros x H; apply coup_in in H; lia]. unfold coup_paths.
  change ((IsoJ i j, c_j s) :: ?l) with ([(IsoJ i j, c_j s)] ++ l).
  apply (increasing_app _ _ 1); [lia | lia | split; [repeat constructor; auto | repeat constructor; cbn; lia] |].
  apply (increasing_app _ _ 8); [lia | lia | apply increasing_present; intros t; apply (increasing_tens _ 1); reflexivity |].
  apply (increasing_app _ _ 15); [lia | lia | apply increasing_present; intros t; apply (increasing_tens _ 8); reflexivity |].
  apply increasing_present; intros t; apply (increasing_tens _ 15); reflexivity.
Qed.
Lemma sys_increasing i y : increasing rank_sys i (i + 1) (sys_paths i y).
Proof.
  assert (Hin : forall x, In x (sys_paths i y) -> rank_sys (fst x) = i).
  { intros x H. unfold sys_paths in H. rewrite !in_app_iff in H. destruct H as [H|[H|[<-|[]]]]; [| |reflexivity].
    - apply in_each in H as [k [s [_ H]]]. now apply site_in in H.
    - apply present_in in H as [l [_ H]]. apply in_each in H as [k [s [_ H]]]. now apply coup_in in H. }
  eapply (re_rank rank_sort _ 0 3); [|intros x H; apply Hin in H; lia]. unfold sys_paths.
  apply (increasing_app _ _ 1); [lia | lia | |apply (increasing_app _ _ 2); [lia | lia | |]].
  - eapply re_rank; [apply (increasing_each rank_sub), site_increasing|]. intros x H. apply in_each in H as [k [s [_ H]]]. apply site_in in H. lia.
  - destruct (y_couplings y) as [l|]; [|apply increasing_nil]. cbn [present].
    eapply re_rank; [apply (increasing_each rank_sub), coup_increasing|]. intros x H. apply in_each in H as [k [s [_ H]]]. apply coup_in in H. lia.
  - split; [repeat constructor; auto | repeat constructor; cbn; lia].
Qed.
Lemma all_nodup systems : NoDup (map fst (all_paths systems)).
Proof. apply (increasing_each rank_sys sys_paths sys_increasing systems 0). Qed.

(** * The parameters *)
Lemma contains_app_r a b s : contains (a ++ b) s = true -> contains b s = true.
Proof.
  revert s. induction a as [|x a IH]; intros s H; [exact H|]. cbn [append] in H.
  assert (P : forall y, contains b (String y s) = true \/ contains b s = true -> contains b (String y s) = true).
  { intros y [K|K]; [exact K|]. cbn [contains]. rewrite K. now destruct (prefix b (String y s)). }
  clear P. revert H. induction s as [|y s IHs]; intros H; [discriminate|].
  cbn [contains] in H. cbn [contains]. destruct (prefix b (String y s)); [reflexivity|].
  destruct (prefix (String x (a ++ b)) (String y s)) eqn:E; [|now apply IHs].
  cbn in E. destruct (ascii_dec x y); [|discriminate]. apply IH.
  destruct s; cbn [contains]; now rewrite E.
Qed.
Lemma prefix_digits d : forall d' c c' r r', all_digits d = true -> all_digits d' = true -> is_digit c = false -> is_digit c' = false ->
  prefix (d ++ String c r) (d' ++ String c' r') = true -> d = d'.
Proof.
  induction d as [|x d IH]; intros d' c c' r r' H H' N N' P; destruct d' as [|y d']; cbn in *.
  - reflexivity.
  - apply andb_true_iff in H' as [Hy _]. destruct (ascii_dec c y); [congruence | discriminate].
  - apply andb_true_iff in H as [Hx _]. destruct (ascii_dec x c'); [congruence | discriminate].
  - apply andb_true_iff in H as [_ H]. apply andb_true_iff in H' as [_ H']. destruct (ascii_dec x y) as [->|]; [|discriminate].
    f_equal. now apply (IH d' c c' r r').
Qed.
Lemma prefix_refl s : forall r, prefix s (s ++ r) = true.
Proof. induction s as [|c s IH]; intros r; cbn; [now destruct r|]. destruct (ascii_dec c c); [apply IH | congruence]. Qed.
Lemma contains_head s r : contains s (s ++ r) = true.
Proof. pose proof (prefix_refl s r) as H. destruct (s ++ r)%string; cbn [contains]; now rewrite H. Qed.
Lemma contains_tail p s : forall q, contains s q = true -> contains s (p ++ q) = true.
Proof. induction p as [|c p IH]; intros q H; [exact H|]. cbn [append contains]. rewrite (IH q H). now destruct (prefix s (String c (p ++ q))). Qed.
Lemma contains_digits_back m d : forall p, all_digits d = true -> all_digits p = true ->
  contains (dec m ++ "_abundance") (d ++ "_abundance") = true -> (m <= int_of (p ++ d))%nat.
Proof.
  induction d as [|x d IH]; intros p Hd Hp H.
  - exfalso. destruct (dec_nonempty m) as [c [r [E [A B]]]]. rewrite E in H. revert H. cbn [append].
    assert (F : forall s, no_digits s = true -> contains (String c (r ++ "_abundance")) s = false).
    { induction s as [|y s IHs]; intros N; [reflexivity|]. cbn in N. apply andb_true_iff in N as [Ny N]. cbn [contains prefix].
      destruct (ascii_dec c y) as [<-|]; [rewrite A in Ny; discriminate|]. now apply IHs. }
    rewrite F by reflexivity. discriminate.
  - cbn [append contains] in H. destruct (prefix (dec m ++ "_abundance") (String x (d ++ "_abundance"))) eqn:E.
    + change (String x (d ++ "_abundance"))%string with (String x d ++ "_abundance")%string in E.
      apply prefix_digits in E; auto using digits_dec. rewrite <- E. rewrite <- (int_dec m) at 1. apply int_suffix.
    + cbn in Hd. apply andb_true_iff in Hd as [Hx Hd].
      assert (Q1 : all_digits (p ++ String x EmptyString) = true).
      { clear - Hp Hx. induction p as [|z p IHp]; cbn in *; [now rewrite Hx|]. apply andb_true_iff in Hp as [A B]. now rewrite A, IHp. }
      specialize (IH _ Hd Q1 H). now rewrite app_assoc_s in IH.
Qed.
Lemma last_abundance_only m i : (i <= m)%nat -> contains (dec m ++ "_abundance") (documented_name (Abundance i)) = (i =? m)%nat.
Proof.
  intros L. cbn [documented_name]. destruct (i =? m)%nat eqn:E.
  - apply Nat.eqb_eq in E. subst. apply contains_tail. replace (dec m ++ "_abundance")%string with ((dec m ++ "_abundance") ++ "")%string at 2 by apply app_nil_s.
    apply contains_head.
  - apply Nat.eqb_neq in E. apply not_true_iff_false. intros H.
    assert (T : contains (dec m ++ "_abundance") (dec i ++ "_abundance") = true).
    { destruct (dec_nonempty m) as [c [r [Em [A B]]]]. rewrite Em in *. cbn [append contains prefix] in H.
      destruct (ascii_dec c "s") as [->|]; [discriminate A|]. destruct (ascii_dec c "y") as [->|]; [discriminate A|].
      destruct (ascii_dec c "_") as [->|]; [discriminate A|]. exact H. }
    pose proof (contains_digits_back m (dec i) "" (digits_dec i) eq_refl T) as K. cbn [append] in K. rewrite int_dec in K. lia.
Qed.
Definition eta_path (p : path) : bool := match p with SiteT _ _ _ Eta | CoupT _ _ _ Eta => true | _ => false end.
Definition abundance_path (p : path) : bool := match p with Abundance _ => true | _ => false end.
Lemma contains_eta p : contains "_eta" (documented_name p) = eta_path p.
Proof.
  rewrite name_tok, contains_tok by reflexivity.
  destruct p as [i|i j|i j t a|i j|i j t a]; try destruct t; try destruct a; vm_compute; reflexivity.
Qed.
Lemma contains_abundance p : contains "abundance" (documented_name p) = abundance_path p.
Proof.
  rewrite name_tok, contains_tok by reflexivity.
  destruct p as [i|i j|i j t a|i j|i j t a]; try destruct t; try destruct a; vm_compute; reflexivity.
Qed.

Fixpoint every_char (P : ascii -> bool) (s : string) : bool := match s with EmptyString => true | String c r => P c && every_char P r end.
(** The expression of the last abundance. *)
Lemma split_nosep c s r : every_char (fun x => negb (Ascii.eqb x c)) s = true ->
  split c (s ++ String c r) = s :: split c r.
Proof.
  induction s as [|x s IH]; intros H.
  - cbn [append split]. now rewrite Ascii.eqb_refl.
  - cbn in H. apply andb_true_iff in H as [A B]. apply negb_true_iff in A. cbn [append split]. now rewrite A, (IH B).
Qed.
Lemma split_one c s : every_char (fun x => negb (Ascii.eqb x c)) s = true -> split c s = [s].
Proof.
  induction s as [|x s IH]; intros H; [reflexivity|]. cbn in H. apply andb_true_iff in H as [A B]. apply negb_true_iff in A.
  cbn [split]. now rewrite A, (IH B).
Qed.
Lemma split_join l : l <> [] -> Forall (fun s => every_char (fun x => negb (Ascii.eqb x "-")) s = true) l -> split "-" (join "-" l) = l.
Proof.
  induction l as [|s l IH]; intros N F; [congruence|]. inversion F as [|? ? A B]; subst. destruct l as [|s' l].
  - cbn. now apply split_one.
  - change (join "-" (s :: s' :: l)) with (s ++ String "-" (join "-" (s' :: l)))%string.
    rewrite split_nosep by exact A. now rewrite IH by (discriminate || assumption).
Qed.
Lemma no_minus i : every_char (fun x => negb (Ascii.eqb x "-")) (START ++ dec i ++ "_abundance") = true.
Proof.
  cbn [START append every_char]. change (every_char (fun x => negb (Ascii.eqb x "-")) (dec i ++ "_abundance") = true).
  pose proof (digits_dec i) as H. induction (dec i) as [|c s IH]; [reflexivity|]. cbn in H. apply andb_true_iff in H as [A B].
  cbn [append every_char]. rewrite (IH B), andb_true_r. apply negb_true_iff, Ascii.eqb_neq. intros ->. discriminate.
Qed.
Lemma fold_minus env l : Forall (fun s => isnumeric s = false) l ->
  forall a : Q, (fold_left (fun acc x => acc - term_value env x) l a == a - sumQ (map env l))%Q.
Proof.
  induction 1 as [|s l N F IH]; intros a; cbn [fold_left map sumQ fold_right]; [lra|]. rewrite IH. unfold term_value at 1. rewrite N.
  unfold sumQ. lra.
Qed.
Lemma expression_value n : one_hundred_minus_others n (expression n).
Proof.
  intros env. unfold expression.
  set (l := map (fun i => START ++ dec i ++ "_abundance")%string (seq 0 (n - 1))).
  assert (Fn : Forall (fun s => isnumeric s = false) l) by (apply Forall_forall; intros s H; apply in_map_iff in H as [i [<- _]]; reflexivity).
  assert (Fm : Forall (fun s => every_char (fun x => negb (Ascii.eqb x "-")) s = true) l)
    by (apply Forall_forall; intros s H; apply in_map_iff in H as [i [<- _]]; apply no_minus).
  assert (Fs : Forall (fun s => exists r, s = String "s" r) l) by (apply Forall_forall; intros s H; apply in_map_iff in H as [i [<- _]]; eexists; reflexivity).
  assert (E : map (fun i => env (documented_name (Abundance i))) (seq 0 (n - 1)) = map env l) by (unfold l; now rewrite map_map).
  rewrite E. destruct l as [|s l'] eqn:El.
  - cbn [map sumQ fold_right]. change (eval_expr env _) with 100%Q. reflexivity.
  - assert (J : exists c r, join "-" (s :: l') = String c r).
    { inversion Fs as [|? ? [r0 ->] ?]. unfold join. destruct l'; cbn; eauto. }
    destruct J as [c [r J]]. rewrite J. rewrite <- J. unfold eval_expr.
    change ("100-" ++ join "-" (s :: l'))%string with ("100" ++ String "-" (join "-" (s :: l')))%string.
    rewrite split_nosep by reflexivity. rewrite split_join by (discriminate || assumption). rewrite fold_minus by assumption.
    change (term_value env "100") with 100%Q. reflexivity.
Qed.

Lemma total_sum l : (total l == sumQ l)%Q.
Proof.
  unfold total. cut (forall a, (fold_left Qplus l a == a + sumQ l)%Q); [intros H; rewrite H; lra|].
  induction l as [|x l IH]; intros a; cbn [fold_left sumQ fold_right]; [lra|]. rewrite IH. unfold sumQ. lra.
Qed.
Section Params.
  Variables (units : dict) (name label description pathways : pv).
  Notation sys := (sys_dict units name label description pathways).
  Lemma abundances_read systems :
    mapM (fun s => let* x := get_one s "abundance" in as_number x) (map sys systems) = Ok (map y_abundance systems).
  Proof. induction systems as [|y l IH]; [reflexivity|]. cbn [map mapM]. rewrite IH. reflexivity. Qed.
  Lemma params_unfold systems : make_LMFIT_params (map sys systems) =
    (let* scale := abundance_scale (map y_abundance systems) in
     mapM (add_param (PDict [("spin_systems", PList (map sys systems))]) scale (length systems)) (map (fun pq => code_name (fst pq)) (all_paths systems))).
  Proof. unfold make_LMFIT_params. rewrite all_names, abundances_read. cbn [bind]. now rewrite map_length. Qed.

  Lemma param_described systems scale pq : (scale == 100 / sumQ (map y_abundance systems))%Q ->
    In pq (all_paths systems) -> decodable (fst pq) ->
    exists r, add_param (PDict [("spin_systems", PList (map sys systems))]) scale (length systems) (code_name (fst pq)) = Ok r /\
      describes (length systems) (sumQ (map y_abundance systems)) pq r.
  Proof.
    intros Hs I Dp. destruct pq as [p q]. cbn [fst] in *.
    assert (Ep : code_name p = documented_name p) by (apply encode_documented; destruct p as [|?|? ? [] ?|?|? ? [] ?]; cbn in *; auto).
    destruct (present_get units name label description pathways [("spin_systems", PList (map sys systems))] systems p q eq_refl I) as [G K].
    unfold add_param, get_simulator_object_value. rewrite Ep, (decode_documented p Dp), G. cbn [bind as_number].
    rewrite contains_eta, contains_abundance.
    eexists; split; [reflexivity|]. unfold describes. cbn [fst snd].
    destruct (abundance_path p) eqn:Ea.
    - destruct p as [i| | | |]; try discriminate. cbn [eta_path]. destruct K as [y [Ey ->]].
      assert (L : (i < length systems)%nat) by (apply nth_error_Some; congruence).
      rewrite last_abundance_only by lia.
      destruct (Nat.eqb_spec i (length systems - 1)) as [E|N]; cbn [p_name p_value p_min p_max p_expr].
      + repeat split; try lia. intros _. eexists; split; [reflexivity | apply expression_value].
      + repeat split; try lia. rewrite Hs. unfold Qdiv. ring.
    - assert (La : contains (dec (length systems - 1) ++ "_abundance") (documented_name p) = false).
      { apply not_true_iff_false. intros H. change "_abundance" with ("_" ++ "abundance")%string in H.
        apply contains_app_r, contains_app_r in H. rewrite contains_abundance, Ea in H. discriminate. }
      rewrite La. destruct p as [i|i j|i j t a|i j|i j t a]; try discriminate Ea; try destruct a;
        cbn [eta_path p_name p_value p_min p_max p_expr is_eta]; repeat split; auto; try tauto; intros []; auto.
  Qed.
  Lemma params_described systems : ~ (sumQ (map y_abundance systems) == 0)%Q ->
    (forall p q, In (p, q) (all_paths systems) -> decodable p) ->
    exists ps, make_LMFIT_params (map sys systems) = Ok ps /\
      Forall2 (describes (length systems) (sumQ (map y_abundance systems))) (all_paths systems) ps.
  Proof.
    intros Nz Hd. rewrite params_unfold. unfold abundance_scale.
    destruct (Qeq_bool (total (map y_abundance systems)) 0) eqn:E.
    - apply Qeq_bool_eq in E. rewrite total_sum in E. contradiction.
    - cbn [bind]. set (scale := (100 / total (map y_abundance systems))%Q).
      assert (Hs : (scale == 100 / sumQ (map y_abundance systems))%Q) by (unfold scale; now rewrite total_sum).
      assert (H : forall l, (forall pq, In pq l -> In pq (all_paths systems)) ->
        exists ps, mapM (add_param (PDict [("spin_systems", PList (map sys systems))]) scale (length systems)) (map (fun pq => code_name (fst pq)) l) = Ok ps /\
          Forall2 (describes (length systems) (sumQ (map y_abundance systems))) l ps).
      { induction l as [|pq l IH]; intros Hl; [exists []; split; [reflexivity | constructor]|].
        destruct (param_described systems scale pq Hs (Hl pq (or_introl eq_refl))) as [r [Er Dr]].
        { destruct pq as [p q]. apply (Hd p q), Hl. now left. }
        destruct IH as [ps [Eps Dps]]; [intros; apply Hl; now right|].
        exists (r :: ps). cbn [map mapM]. rewrite Er. cbn [bind]. rewrite Eps. cbn [bind]. split; [reflexivity | now constructor]. }
      apply H. auto.
  Qed.
  Lemma params_zero systems : (sumQ (map y_abundance systems) == 0)%Q -> make_LMFIT_params (map sys systems) = Err ZeroDivisionError.
  Proof.
    intros H. rewrite params_unfold. unfold abundance_scale. rewrite <- total_sum in H. apply Qeq_eq_bool in H. rewrite H. reflexivity.
  Qed.

  (** Attributes that are not decodable. *)
  Lemma not_numeric_rest d c r : is_digit c = false -> isnumeric (d ++ String c r) = false.
  Proof.
    intros N. assert (H : forall d, all_digits (d ++ String c r) = false).
    { induction d0 as [|x d0 IH]; cbn; [now rewrite N | rewrite IH; apply andb_false_r]. }
    specialize (H d). destruct (d ++ String c r)%string eqn:E; [reflexivity | exact H].
  Qed.
  Definition anti_steps (p : path) : list string :=
    match p with
    | SiteT i j t a => ["spin_systems"; dec i; "sites"; dec j ++ "]"; stensor_name t; tattr_name a]%string
    | CoupT i j JSym a => ["spin_systems"; dec i; "couplings"; dec j ++ "_j_symmetric_" ++ tattr_name a]%string
    | CoupT i j t a => ["spin_systems"; dec i; "couplings"; dec j ++ "]"; ctensor_name t; tattr_name a]%string
    | _ => []
    end.
  Lemma decode_anti p : ~ decodable p -> str_decode (code_name p) = anti_steps p.
  Proof.
    intros H. unfold code_name. rewrite text_tok, encode_tok, decode_tok.
    assert (E : exists l, tsplit "." (tdecode (tencode (ttext p))) = l /\ map denote l = anti_steps p).
    { destruct p as [i|i j|i j t a|i j|i j t a]; try destruct t; try destruct a; cbn in H; try tauto;
        (eexists; split; [vm_compute; reflexivity|]); cbn [map]; rewrite ?denote_num; cbn [denote anti_steps stensor_name ctensor_name tattr_name]; reflexivity. }
    destruct E as [l [-> E]]. exact E.
  Qed.
  Lemma undecodable_fails systems scale n p q : In (p, q) (all_paths systems) -> ~ decodable p ->
    add_param (PDict [("spin_systems", PList (map sys systems))]) scale n (code_name p) = Err AttributeError.
  Proof.
    intros I H.
    destruct (present_get units name label description pathways [("spin_systems", PList (map sys systems))] systems p q eq_refl I) as [_ K].
    unfold add_param, get_simulator_object_value. rewrite (decode_anti p H).
    assert (F : forall t a b c x r l, get_path t [a; b; c] = Ok (PList l) -> isnumeric x = false -> get_path t (a :: b :: c :: x :: r) = Err AttributeError).
    { intros t a b c x r l G N. cbn [get_path] in *. destruct (get_one t a) as [o|]; [|discriminate]. cbn [bind] in *.
      destruct (get_one o b) as [o'|]; [|discriminate]. cbn [bind] in *. destruct (get_one o' c) as [o''|]; [|discriminate]. cbn [bind] in *.
      injection G as ->. unfold get_one. now rewrite N. }
    destruct p as [i|i j|i j t a|i j|i j t a]; cbn in H; try tauto; destruct K as [l K]; destruct t; try tauto; cbn [anti_steps];
      erewrite F; try exact K; try reflexivity; now apply not_numeric_rest.
  Qed.
  Lemma decodable_dec p : decodable p \/ ~ decodable p.
  Proof. destruct p as [i|i j|i j [] a|i j|i j [] a]; cbn; tauto. Qed.
  Lemma params_fail systems : ~ (sumQ (map y_abundance systems) == 0)%Q ->
    (exists p q, In (p, q) (all_paths systems) /\ ~ decodable p) -> make_LMFIT_params (map sys systems) = Err AttributeError.
  Proof.
    intros Nz [p0 [q0 [I0 N0]]]. rewrite params_unfold. unfold abundance_scale.
    destruct (Qeq_bool (total (map y_abundance systems)) 0) eqn:E.
    - apply Qeq_bool_eq in E. rewrite total_sum in E. contradiction.
    - cbn [bind]. set (scale := (100 / total (map y_abundance systems))%Q).
      assert (Hs : (scale == 100 / sumQ (map y_abundance systems))%Q) by (unfold scale; now rewrite total_sum).
      assert (H : forall l, (forall pq, In pq l -> In pq (all_paths systems)) -> In (p0, q0) l ->
        mapM (add_param (PDict [("spin_systems", PList (map sys systems))]) scale (length systems)) (map (fun pq => code_name (fst pq)) l) = Err AttributeError).
      { induction l as [|[p q] l IH]; intros Hl I; [destruct I|]. cbn [map mapM fst].
        destruct (decodable_dec p) as [Dp|Np].
        - destruct (param_described systems scale (p, q) Hs (Hl _ (or_introl eq_refl)) Dp) as [r [Er _]]. cbn [fst] in Er. rewrite Er. cbn [bind].
          rewrite IH; [reflexivity | intros; apply Hl; now right |]. destruct I as [I|I]; [|exact I]. injection I as -> ->. contradiction.
        - rewrite (undecodable_fails systems scale _ p q (Hl _ (or_introl eq_refl)) Np). reflexivity. }
      apply H; auto.
  Qed.
End Params.

(** * The names given by the code are different too *)
Definition tcode (p : path) : list tok :=
  match p with
  | SiteT i j ShieldAnti a => lit "sys_" ++ [Num i] ++ lit "_site_" ++ [Num j] ++ lit "].shielding_antisymmetric." ++ lit (tattr_name a)
  | CoupT i j JAnti a => lit "sys_" ++ [Num i] ++ lit "_coupling_" ++ [Num j] ++ lit "].j_antisymmetric." ++ lit (tattr_name a)
  | _ => tname p
  end.
Lemma code_tok p : code_name p = denote (tcode p).
Proof.
  unfold code_name. rewrite text_tok, encode_tok. apply (f_equal denote).
  destruct p as [i|i j|i j t a|i j|i j t a]; try destruct t; try destruct a; vm_compute; reflexivity.
Qed.
Definition coded (p : path) : string :=
  match p with
  | Abundance i => "sys_" ++ dec i ++ "_abundance"
  | Shift i j => "sys_" ++ dec i ++ "_site_" ++ dec j ++ "_isotropic_chemical_shift"
  | SiteT i j ShieldAnti a => "sys_" ++ dec i ++ "_site_" ++ dec j ++ "].shielding_antisymmetric." ++ tattr_name a
  | SiteT i j t a => "sys_" ++ dec i ++ "_site_" ++ dec j ++ "_" ++ stensor_name t ++ "_" ++ tattr_name a
  | IsoJ i j => "sys_" ++ dec i ++ "_coupling_" ++ dec j ++ "_isotropic_j"
  | CoupT i j JAnti a => "sys_" ++ dec i ++ "_coupling_" ++ dec j ++ "].j_antisymmetric." ++ tattr_name a
  | CoupT i j t a => "sys_" ++ dec i ++ "_coupling_" ++ dec j ++ "_" ++ ctensor_name t ++ "_" ++ tattr_name a
  end%string.
Lemma code_coded p : code_name p = coded p.
Proof. rewrite code_tok. destruct p as [i|i j|i j t a|i j|i j t a]; try destruct t; unfold tcode, tname; to_strings; reflexivity. Qed.
Lemma code_names_injective p p' : code_name p = code_name p' -> p = p'.
Proof.
  rewrite !code_coded. intros H.
  assert (C : forall i i' c c' r r', ("sys_" ++ dec i ++ String c r = "sys_" ++ dec i' ++ String c' r')%string ->
    is_digit c = false -> is_digit c' = false -> i = i' /\ String c r = String c' r').
  { intros i i' c c' r r' E N N'. cbn [append] in E. injection E as E. now apply dec_cut in E. }
  destruct p as [i|i j|i j t a|i j|i j t a], p' as [i'|i' j'|i' j' t' a'|i' j'|i' j' t' a']; cbn [coded] in H;
    try destruct t; try destruct t';
    apply C in H as [-> H]; try reflexivity; cbn [append] in H; try discriminate H; injection H as H;
    apply dec_cut in H as [-> H]; try reflexivity;
    try destruct a; cbn in H; try discriminate H; try destruct a'; cbn in H; try discriminate H; reflexivity.
Qed.
