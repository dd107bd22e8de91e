(** Proofs about the serialisation with units. *)
From Coq Require Import ZArith QArith Qcanon Bool Ascii String Lia List.
From Verif Require Import Base SitesModel SitesSpec SitesProofs JsonModel JsonSpec.
From Verif Require DictProofs BaseProofs.
Import ListNotations.
Open Scope string_scope.
Open Scope list_scope.

Lemma Qc_leb_iff x y : Qc_leb x y = true <-> (x <= y)%Qc.
Proof. unfold Qc_leb. rewrite Qle_bool_iff. reflexivity. Qed.
Lemma Qc_leb_true x y : (x <= y)%Qc -> Qc_leb x y = true.
Proof. apply Qc_leb_iff. Qed.
Lemma Qc_eqb_iff x y : Qc_eq_bool x y = true <-> x = y.
Proof. unfold Qc_eq_bool. destruct (Qc_eq_dec x y); split; congruence. Qed.
Lemma Qc_eqb_refl x : Qc_eq_bool x x = true.
Proof. now apply Qc_eqb_iff. Qed.
Lemma Qc_eqb_false x y : x <> y -> Qc_eq_bool x y = false.
Proof. intros H. destruct (Qc_eq_bool x y) eqn:E; [|reflexivity]. apply Qc_eqb_iff in E. contradiction. Qed.
Lemma int_of_Z z : int_of (Qc_of_Z z) = z.
Proof. unfold int_of, Qc_of_Z. cbn [this Q2Qc]. assert (E : Qred (inject_Z z) = inject_Z z) by (apply Qred_iff; cbn; apply Z.gcd_1_r). rewrite E. cbn. apply Z.quot_1_r. Qed.
Lemma bind_ok A B (x : pyres A) (f : A -> pyres B) r : bind x f = Ok r -> exists a, x = Ok a /\ f a = Ok r.
Proof. destruct x as [a|]; [|discriminate]. intros H. now exists a. Qed.

(** ** Units *)
Lemma unit_size u ty s : unit_info u = Some (ty, s) -> s <> 0%Qc.
Proof.
  unfold unit_info. intros H. repeat (destruct (String.eqb u _); [injection H as <- <-; intros E; discriminate (f_equal (fun x => Qnum (this x)) E)|]). discriminate.
Qed.
Lemma enforce_same q u ty s : unit_info u = Some (ty, s) -> enforce_units (JQty q u) ty u = Some q.
Proof.
  intros H. unfold enforce_units. rewrite H, String.eqb_refl. cbn [andb]. f_equal. pose proof (unit_size _ _ _ H). field. assumption.
Qed.
Lemma enforce_ppm q : enforce_units (JQty q "ppm") "dimensionless" "ppm" = Some q.
Proof. eapply enforce_same. reflexivity. Qed.
Lemma enforce_hz q : enforce_units (JQty q "Hz") "frequency" "Hz" = Some q.
Proof. eapply enforce_same. reflexivity. Qed.
Lemma enforce_rad q : enforce_units (JQty q "rad") "angle" "rad" = Some q.
Proof. eapply enforce_same. reflexivity. Qed.
Lemma enforce_T q : enforce_units (JQty q "T") "magnetic flux density" "T" = Some q.
Proof. eapply enforce_same. reflexivity. Qed.
Lemma enforce_pct q : enforce_units (JQty q "%") "dimensionless" "pct" = Some q.
Proof. unfold enforce_units. cbn. f_equal. field. intros E; discriminate (f_equal (fun x => Qnum (this x)) E). Qed.
Lemma enforce_hz_ppm q : enforce_units (JQty q "Hz") "dimensionless" "ppm" = None.
Proof. reflexivity. Qed.
Lemma enforce_ppm_hz q : enforce_units (JQty q "ppm") "frequency" "Hz" = None.
Proof. reflexivity. Qed.
Lemma enforce_num q ty u : enforce_units (JNum q) ty u = None.
Proof. reflexivity. Qed.
Global Opaque enforce_units Qc_leb Qc_eq_bool.

(** ** The reading of the quantities of a dict *)
Definition fit (sp : unit_spec) (v : jval) : option (Qc * string) :=
  match sp with Single ty u => option_map (fun q => (q, u)) (enforce_units v ty u) | Multi o => first_fit v o end.
Definition first_unit (sp : unit_spec) : string := match sp with Single _ u => u | Multi ((_, u) :: _) => u | Multi [] => "" end.
Definition all_fit (t : unit_table) (d : jdict) : Prop := forall p sp v, In (p, sp) t -> dict_lookup d p = Some v -> fit sp v <> None.
Definition read_units (t : unit_table) (d : jdict) : units :=
  map (fun e => (fst e, match dict_lookup d (fst e) with
                        | Some v => match fit (snd e) v with Some (_, u) => u | None => first_unit (snd e) end
                        | None => first_unit (snd e)
                        end)) t.
Definition read_value (sp : unit_spec) (v : jval) : jval := match fit sp v with Some (q, _) => JNum q | None => v end.
Definition step (e : string * unit_spec) (s : jdict * units) : pyres (jdict * units) :=
  let '(prop, spec) := e in let '(d, pu) := s in
    match dict_lookup d prop with
    | None => Ok (d, pu)
    | Some v =>
        match spec with
        | Single ty u => match enforce_units v ty u with Some q => Ok (dict_set d prop (JNum q), dict_set pu prop u) | None => Err OtherException end
        | Multi options => match first_fit v options with Some (q, u) => Ok (dict_set d prop (JNum q), dict_set pu prop u) | None => Err IndexError end
        end
    end.
Lemma parse_units_step t d : parse_units t d = for_each t step (d, default_units t).
Proof. reflexivity. Qed.
Lemma step_fit p sp d pu : step (p, sp) (d, pu) =
  match dict_lookup d p with
  | None => Ok (d, pu)
  | Some v => match fit sp v with Some (q, u) => Ok (dict_set d p (JNum q), dict_set pu p u)
              | None => Err (match sp with Single _ _ => OtherException | Multi _ => IndexError end) end
  end.
Proof. unfold step, fit. destruct (dict_lookup d p); [|reflexivity]. destruct sp; [destruct (enforce_units _ _ _)|]; reflexivity. Qed.
Lemma lookup_none A (d : list (string * A)) k : dict_lookup d k = None <-> ~ In k (map fst d).
Proof. apply DictProofs.lookup_none. Qed.

Lemma loop_ok t : forall d pu, NoDup (map fst t) -> all_fit t d -> exists d',
  for_each t step (d, pu) = Ok (d', fold_left (fun pu e => match dict_lookup d (fst e) with
                                                           | Some v => match fit (snd e) v with Some (_, u) => dict_set pu (fst e) u | None => pu end
                                                           | None => pu end) t pu) /\
  forall k, dict_lookup d' k = match dict_lookup t k with Some sp => option_map (read_value sp) (dict_lookup d k) | None => dict_lookup d k end.
Proof.
  induction t as [|[p sp] t IH]; intros d pu N F.
  - exists d. split; [reflexivity|]. intros k. reflexivity.
  - cbn [map fst] in N. inversion N as [|? ? N1 N2]; subst. cbn [for_each]. rewrite step_fit. cbn [fold_left fst snd].
    destruct (dict_lookup d p) as [v|] eqn:L.
    + pose proof (F p sp v (or_introl eq_refl) L) as FV. destruct (fit sp v) as [[q u]|] eqn:FE; [|congruence]. cbn [bind].
      assert (O : forall k, In k (map fst t) -> dict_lookup (dict_set d p (JNum q)) k = dict_lookup d k).
      { intros k Hk. rewrite lookup_set. destruct (String.eqb_spec p k) as [->|]; [contradiction|reflexivity]. }
      destruct (IH (dict_set d p (JNum q)) (dict_set pu p u) N2) as (d' & E & K).
      { intros p' sp' v' HI HL. rewrite O in HL by (apply (in_map fst) in HI; exact HI). apply (F p' sp' v'); [now right|exact HL]. }
      exists d'. split.
      * etransitivity; [exact E|]. f_equal. f_equal. assert (G : forall pu0, incl t t -> fold_left (fun pu1 e => match dict_lookup (dict_set d p (JNum q)) (fst e) with Some v0 => match fit (snd e) v0 with Some (_, u0) => dict_set pu1 (fst e) u0 | None => pu1 end | None => pu1 end) t pu0 = fold_left (fun pu1 e => match dict_lookup d (fst e) with Some v0 => match fit (snd e) v0 with Some (_, u0) => dict_set pu1 (fst e) u0 | None => pu1 end | None => pu1 end) t pu0).
        { clear - O. intros pu0 _. revert pu0. assert (I : incl t t) by apply incl_refl. revert I. generalize t at 1 3 4. intros t0. induction t0 as [|e r IH]; intros I pu0; [reflexivity|].
          cbn [fold_left]. rewrite O by (apply in_map; apply I; now left). apply IH. intros x Hx. apply I. now right. }
        apply G. apply incl_refl.
      * intros k. rewrite K, lookup_cons, lookup_set. destruct (String.eqb_spec p k) as [->|].
        -- assert (Z : dict_lookup t k = None) by now apply lookup_none. rewrite Z, L. cbn [option_map]. unfold read_value. now rewrite FE.
        -- reflexivity.
    + cbn [bind]. destruct (IH d pu N2) as (d' & E & K); [intros p' sp' v' HI; apply F; now right|]. exists d'. split; [exact E|].
      intros k. rewrite K, lookup_cons. destruct (String.eqb_spec p k) as [->|]; [|reflexivity].
      assert (Z : dict_lookup t k = None) by now apply lookup_none. now rewrite Z, L.
Qed.
Lemma set_app A (a : list (string * A)) p x b y : ~ In p (map fst a) -> dict_set (a ++ (p, x) :: b) p y = a ++ (p, y) :: b.
Proof.
  induction a as [|[k v] a IH]; intros H; cbn [app dict_set].
  - now rewrite String.eqb_refl.
  - cbn in H. destruct (String.eqb_spec k p) as [->|]; [tauto|]. rewrite IH; tauto.
Qed.
Lemma fold_units t d : forall pre, NoDup (map fst pre ++ map fst t) ->
  fold_left (fun pu e => match dict_lookup d (fst e) with
                         | Some v => match fit (snd e) v with Some (_, u) => dict_set pu (fst e) u | None => pu end
                         | None => pu end) t (pre ++ default_units t) = pre ++ read_units t d.
Proof.
  induction t as [|[p sp] t IH]; intros pre N; [reflexivity|]. cbn [fold_left fst snd].
  assert (NP : ~ In p (map fst pre)).
  { intros X. cbn in N. apply NoDup_remove_2 in N. apply N. apply in_or_app. now left. }
  cbn [default_units map fst snd read_units]. fold (first_unit sp).
  assert (S : forall u, NoDup (map fst (pre ++ [(p, u)]) ++ map fst t)) by (intros u; rewrite map_app, <- app_assoc; exact N).
  assert (C : forall (x : string * string) l, pre ++ x :: l = (pre ++ [x]) ++ l) by (intros x l; now rewrite <- app_assoc).
  destruct (dict_lookup d p) as [v|]; [destruct (fit sp v) as [[q u]|]|].
  - rewrite (set_app _ pre p _ _ u NP). (etransitivity; [|symmetry; apply C]; etransitivity; [|apply IH, S]; f_equal; apply C).
  - (etransitivity; [|symmetry; apply C]; etransitivity; [|apply IH, S]; f_equal; apply C).
  - (etransitivity; [|symmetry; apply C]; etransitivity; [|apply IH, S]; f_equal; apply C).
Qed.
Lemma parse_units_ok t d : NoDup (map fst t) -> all_fit t d -> exists d', parse_units t d = Ok (d', read_units t d) /\
  forall k, dict_lookup d' k = match dict_lookup t k with Some sp => option_map (read_value sp) (dict_lookup d k) | None => dict_lookup d k end.
Proof.
  intros N F. destruct (loop_ok t d (default_units t) N F) as (d' & E & K). exists d'. split; [|exact K]. rewrite parse_units_step. etransitivity; [exact E|].
  f_equal. f_equal. exact (fold_units t d [] N).
Qed.
Lemma loop_fit t : forall d pu r, NoDup (map fst t) -> for_each t step (d, pu) = Ok r -> all_fit t d.
Proof.
  induction t as [|[p sp] t IH]; intros d pu r N H; [intros p sp v []|]. cbn [map fst] in N. inversion N as [|? ? N1 N2]; subst.
  cbn [for_each] in H. rewrite step_fit in H. intros p' sp' v' [HI|HI] HL.
  - injection HI as -> ->. rewrite HL in H. destruct (fit sp' v') as [[q u]|]; [congruence|discriminate].
  - assert (p <> p') by (intros ->; apply N1; apply (in_map fst) in HI; exact HI).
    destruct (dict_lookup d p) as [v|].
    + destruct (fit sp v) as [[q u]|]; [|discriminate]. cbn [bind] in H. apply (IH _ _ _ N2 H p' sp' v' HI). rewrite lookup_set.
      destruct (String.eqb_spec p p'); [contradiction|exact HL].
    + apply (IH _ _ _ N2 H p' sp' v' HI HL).
Qed.
Lemma parse_units_fit t d r : NoDup (map fst t) -> parse_units t d = Ok r -> all_fit t d.
Proof. intros N. rewrite parse_units_step. now apply loop_fit. Qed.

(** ** The printing of the attributes *)
Lemma lookup_json items pu k : NoDup (map fst items) -> dict_lookup (parseable_json items pu) k =
  match dict_lookup items k with
  | Some v => if kept (k, v) then Some (match dict_lookup pu k with Some u => print_unit u v | None => v end) else None
  | None => None
  end.
Proof.
  unfold parseable_json. induction items as [|[p v] r IH]; intros N; [reflexivity|]. cbn [map fst] in N. inversion N as [|? ? N1 N2]; subst.
  assert (Z : forall j, ~ In j (map fst r) -> dict_lookup (map (fun kv => match dict_lookup pu (fst kv) with Some u => (fst kv, print_unit u (snd kv)) | None => kv end) (filter kept r)) j = None).
  { intros j Hj. apply lookup_none. intros X. apply Hj. rewrite map_map in X. apply in_map_iff in X. destruct X as ([a b] & X1 & X2). apply filter_In in X2. destruct X2 as [X2 _].
    cbn [fst] in X1. apply (in_map fst) in X2. cbn [fst] in X2. destruct (dict_lookup pu a); cbn in X1; now subst. }
  rewrite lookup_cons. cbn [filter]. change (kept (p, v)) with (kept (k, v)). destruct (kept (k, v)) eqn:K.
  - cbn [map fst snd].
    destruct (String.eqb_spec p k) as [->|NE].
    + rewrite K. destruct (dict_lookup pu k); rewrite lookup_cons, String.eqb_refl; reflexivity.
    + destruct (dict_lookup pu p); rewrite lookup_cons; (destruct (String.eqb_spec p k); [contradiction|]); apply IH; assumption.
  - destruct (String.eqb_spec p k) as [->|NE]; [rewrite K; now apply Z|]. now apply IH.
Qed.

Lemma single_unit (o : option jval) ty u :
  match o with Some v => match fit (Single ty u) v with Some (_, u') => u' | None => first_unit (Single ty u) end | None => first_unit (Single ty u) end = u.
Proof. destruct o as [v|]; [|reflexivity]. unfold fit. now destruct (enforce_units v ty u). Qed.
(** An optional number that was printed in unit [u] and is read with [sp]. *)
Lemma read_opt d' k sp u o valid q : (forall x, o = Some x -> fit sp (print_unit u (JNum x)) = Some (x, q) /\ valid x = true) ->
  dict_lookup d' k = option_map (read_value sp) (if kept (k, num_or_none o) then Some (print_unit u (num_or_none o)) else None) ->
  opt_num d' k valid = Ok o.
Proof. intros F L. unfold opt_num. rewrite L. destruct o as [x|]; [|reflexivity]. destruct (F x eq_refl) as [E V]. cbn in *. unfold read_value. rewrite E. cbn. now rewrite V. Qed.
Lemma read_def d' k sp u x default valid q : fit sp (print_unit u (JNum x)) = Some (x, q) -> valid x = true ->
  dict_lookup d' k = option_map (read_value sp) (Some (print_unit u (JNum x))) -> def_num d' k default valid = Ok x.
Proof. intros E V L. unfold def_num. rewrite L. cbn in *. unfold read_value. rewrite E. now rewrite V. Qed.
Lemma read_str d' k o : no_empty o -> dict_lookup d' k = (if kept (k, str_or_none o) then Some (str_or_none o) else None) -> opt_str d' k = Ok o.
Proof.
  intros N L. unfold opt_str. rewrite L. destruct o as [s|]; [|reflexivity]. cbn. destruct (String.eqb_spec s "") as [->|]; [now elim N|reflexivity].
Qed.

Ltac nd := cbn; repeat constructor; cbn; intuition discriminate.
Ltac enf := repeat progress (cbn; rewrite ?enforce_ppm, ?enforce_hz, ?enforce_rad, ?enforce_T, ?enforce_pct, ?enforce_hz_ppm, ?enforce_ppm_hz).
Lemma zeta_fit u q : u = "ppm" \/ u = "Hz" -> fit (Multi [("dimensionless", "ppm"); ("frequency", "Hz")]) (print_unit u (JNum q)) = Some (q, u).
Proof. intros [->| ->]; enf; reflexivity. Qed.
Lemma dim_fit u q : u = "Hz" \/ u = "ppm" -> fit hz_or_ppm (print_unit u (JNum q)) = Some (q, u).
Proof. intros [->| ->]; enf; reflexivity. Qed.
Lemma hz_fit q : fit (Single "frequency" "Hz") (print_unit "Hz" (JNum q)) = Some (q, "Hz").
Proof. enf. reflexivity. Qed.
Lemma rad_fit q : fit (Single "angle" "rad") (print_unit "rad" (JNum q)) = Some (q, "rad").
Proof. enf. reflexivity. Qed.
Lemma ppm_fit q : fit (Single "dimensionless" "ppm") (print_unit "ppm" (JNum q)) = Some (q, "ppm").
Proof. enf. reflexivity. Qed.
Lemma T_fit q : fit (Single "magnetic flux density" "T") (print_unit "T" (JNum q)) = Some (q, "T").
Proof. enf. reflexivity. Qed.
Lemma pct_fit q : fit (Single "dimensionless" "pct") (print_unit "pct" (JNum q)) = Some (q, "pct").
Proof. enf. reflexivity. Qed.
Lemma eta_valid e x : eta_ok e -> e = Some x -> Qc_leb 0 x && Qc_leb x 1 = true.
Proof. intros H ->. cbn in H. destruct H as [A B]. now rewrite !Qc_leb_true. Qed.
Lemma zeta_units z u : zeta_unit z u -> u = "ppm" \/ u = "Hz".
Proof. intros [->|[-> _]]; auto. Qed.
(** A number without a unit. *)
Lemma read_plain d' k o valid : (forall x, o = Some x -> valid x = true) ->
  dict_lookup d' k = (if kept (k, num_or_none o) then Some (num_or_none o) else None) -> opt_num d' k valid = Ok o.
Proof. intros V L. unfold opt_num. rewrite L. destruct o as [x|]; [|reflexivity]. cbn. now rewrite (V x eq_refl). Qed.
Lemma no_units d' : dict_lookup d' "property_units" = None -> no_units_key d' = Ok tt.
Proof. intros H. unfold no_units_key, has_key. now rewrite H. Qed.

(** A symmetric tensor whose recorded units [pu] agree with the printed ones where it has values. *)
Lemma sym_read z c d e a b g u pu : eta_ok e -> zeta_unit z u ->
  (z <> None -> dict_lookup pu "zeta" = Some u) -> (c <> None -> dict_lookup pu "Cq" = Some "Hz") -> (d <> None -> dict_lookup pu "D" = Some "Hz") ->
  dict_lookup pu "alpha" = Some "rad" -> dict_lookup pu "beta" = Some "rad" -> dict_lookup pu "gamma" = Some "rad" -> dict_lookup pu "eta" = None ->
  parse_sym (json_sym (mkSym z c d e a b g pu)) = Ok (mkSym z c d e a b g ([("zeta", u); ("Cq", "Hz"); ("D", "Hz")] ++ angles)).
Proof.
  intros He Hz Pz Pc Pd Pa Pb Pg Pe.
  set (J := json_sym (mkSym z c d e a b g pu)).
  assert (N : NoDup (map fst [("zeta", num_or_none z); ("Cq", num_or_none c); ("D", num_or_none d); ("eta", num_or_none e); ("alpha", num_or_none a); ("beta", num_or_none b); ("gamma", num_or_none g)])) by nd.
  assert (Lz : dict_lookup J "zeta" = if kept ("zeta", num_or_none z) then Some (print_unit u (num_or_none z)) else None).
  { unfold J, json_sym. rewrite lookup_json by exact N. cbn [zeta sym_units]. destruct z; [|reflexivity]. rewrite Pz by discriminate. reflexivity. }
  assert (Lc : dict_lookup J "Cq" = if kept ("Cq", num_or_none c) then Some (print_unit "Hz" (num_or_none c)) else None).
  { unfold J, json_sym. rewrite lookup_json by exact N. cbn [Cq sym_units]. destruct c; [|reflexivity]. rewrite Pc by discriminate. reflexivity. }
  assert (Ld : dict_lookup J "D" = if kept ("D", num_or_none d) then Some (print_unit "Hz" (num_or_none d)) else None).
  { unfold J, json_sym. rewrite lookup_json by exact N. cbn [D sym_units]. destruct d; [|reflexivity]. rewrite Pd by discriminate. reflexivity. }
  assert (Le : dict_lookup J "eta" = if kept ("eta", num_or_none e) then Some (num_or_none e) else None).
  { unfold J, json_sym. rewrite lookup_json by exact N. cbn [eta sym_units]. rewrite Pe. reflexivity. }
  assert (La : dict_lookup J "alpha" = if kept ("alpha", num_or_none a) then Some (print_unit "rad" (num_or_none a)) else None).
  { unfold J, json_sym. rewrite lookup_json by exact N. cbn [alpha sym_units]. rewrite Pa. reflexivity. }
  assert (Lb : dict_lookup J "beta" = if kept ("beta", num_or_none b) then Some (print_unit "rad" (num_or_none b)) else None).
  { unfold J, json_sym. rewrite lookup_json by exact N. cbn [beta sym_units]. rewrite Pb. reflexivity. }
  assert (Lg : dict_lookup J "gamma" = if kept ("gamma", num_or_none g) then Some (print_unit "rad" (num_or_none g)) else None).
  { unfold J, json_sym. rewrite lookup_json by exact N. cbn [gamma sym_units]. rewrite Pg. reflexivity. }
  assert (Lu : dict_lookup J "property_units" = None).
  { unfold J, json_sym. rewrite lookup_json by exact N. reflexivity. }
  assert (F : all_fit sym_table J).
  { intros p sp v HI HL. cbn in HI.
    repeat (destruct HI as [HI|HI]; [injection HI as <- <-; rewrite ?Lz, ?Lc, ?Ld, ?La, ?Lb, ?Lg in HL|]); try contradiction.
    - destruct z as [x|]; cbn [num_or_none kept snd] in HL; [injection HL as <-|discriminate]. change (fit (Multi [("dimensionless", "ppm"); ("frequency", "Hz")]) (print_unit u (JNum x)) <> None). rewrite (zeta_fit u) by now apply (zeta_units _ _ Hz). discriminate.
    - destruct c as [x|]; cbn [num_or_none kept snd] in HL; [injection HL as <-|discriminate]. enf. discriminate.
    - destruct d as [x|]; cbn [num_or_none kept snd] in HL; [injection HL as <-|discriminate]. enf. discriminate.
    - destruct a as [x|]; cbn [num_or_none kept snd] in HL; [injection HL as <-|discriminate]. enf. discriminate.
    - destruct b as [x|]; cbn [num_or_none kept snd] in HL; [injection HL as <-|discriminate]. enf. discriminate.
    - destruct g as [x|]; cbn [num_or_none kept snd] in HL; [injection HL as <-|discriminate]. enf. discriminate. }
  unfold parse_sym. fold J. destruct (parse_units_ok sym_table J ltac:(nd) F) as (d' & E & K). rewrite E. cbn [bind].
  assert (U : read_units sym_table J = [("zeta", u); ("Cq", "Hz"); ("D", "Hz")] ++ angles).
  { unfold read_units, sym_table. cbn [map fst snd]. rewrite !single_unit. unfold angles. cbn [app]. f_equal. f_equal. rewrite Lz.
    destruct z as [x|]; cbn [num_or_none kept snd].
    - rewrite (zeta_fit u) by now apply (zeta_units _ _ Hz). reflexivity.
    - destruct Hz as [->|[_ Hz]]; [reflexivity|congruence]. }
  rewrite U. rewrite no_units by (rewrite K; exact Lu). cbn [bind]. unfold make_sym.
  rewrite (read_opt d' "zeta" (Multi [("dimensionless", "ppm"); ("frequency", "Hz")]) u z any u).
  2: { intros x ->. split; [apply zeta_fit, (zeta_units _ _ Hz)|reflexivity]. }
  2: { rewrite K, Lz. reflexivity. }
  rewrite (read_opt d' "Cq" (Single "frequency" "Hz") "Hz" c any "Hz"); [|intros x _; split; [apply hz_fit|reflexivity]|rewrite K, Lc; reflexivity].
  rewrite (read_opt d' "D" (Single "frequency" "Hz") "Hz" d any "Hz"); [|intros x _; split; [apply hz_fit|reflexivity]|rewrite K, Ld; reflexivity].
  rewrite (read_plain d' "eta" e); [|intros x; now apply eta_valid|rewrite K, Le; reflexivity].
  rewrite (read_opt d' "alpha" (Single "angle" "rad") "rad" a any "rad"); [|intros x _; split; [apply rad_fit|reflexivity]|rewrite K, La; reflexivity].
  rewrite (read_opt d' "beta" (Single "angle" "rad") "rad" b any "rad"); [|intros x _; split; [apply rad_fit|reflexivity]|rewrite K, Lb; reflexivity].
  rewrite (read_opt d' "gamma" (Single "angle" "rad") "rad" g any "rad"); [|intros x _; split; [apply rad_fit|reflexivity]|rewrite K, Lg; reflexivity].
  reflexivity.
Qed.

(** ** Round trips of the tensors *)
Lemma sym_round t : good_sym t -> parse_sym (json_sym t) = Ok t.
Proof.
  destruct t as [z c d e a b g pu]. intros (He & u & Hz & Hu). cbn [sym_units zeta eta] in *. subst pu. apply sym_read; auto.
Qed.
Lemma shielding_round t : good_shielding t -> exists r, parse_sym (json_sym t) = Ok r /\ with_sym_units (pop2 "Cq" "D") r = t.
Proof.
  destruct t as [z c d e a b g pu]. intros (He & Hc & Hd & u & Hz & Hu). cbn [sym_units zeta eta Cq D] in *. subst c d pu.
  eexists. split; [apply (sym_read z None None e a b g u); auto; congruence|]. reflexivity.
Qed.
Lemma quad_round t : good_quadrupolar t -> exists r, parse_sym (json_sym t) = Ok r /\ with_sym_units (pop2 "D" "zeta") r = t.
Proof.
  destruct t as [z c d e a b g pu]. intros (He & Hc & Hd & Hu). cbn [sym_units zeta eta Cq D] in *. subst z d pu.
  eexists. split; [apply (sym_read None c None e a b g "ppm"); auto; try congruence; now left|]. reflexivity.
Qed.
Lemma j_round t : good_j t -> exists r, parse_sym (json_sym t) = Ok r /\ not_ppm (sym_units r) = Ok tt /\ with_sym_units j_units r = t.
Proof.
  destruct t as [z c d e a b g pu]. intros (He & Hz & Hc & Hd & Hu). cbn [sym_units zeta eta Cq D] in *. subst c d pu.
  eexists. split; [apply (sym_read z None None e a b g "Hz"); auto; try congruence; right; auto|]. split; reflexivity.
Qed.
Lemma dipolar_round t : good_dipolar t -> exists r, parse_sym (json_sym t) = Ok r /\ with_sym_units (pop2 "Cq" "zeta") r = t.
Proof.
  destruct t as [z c d e a b g pu]. intros (He & Hz & Hc & Hu). cbn [sym_units zeta eta Cq D] in *. subst c z pu.
  eexists. split; [apply (sym_read None None d e a b g "ppm"); auto; try congruence; now left|]. reflexivity.
Qed.
Lemma anti_round t : good_anti t -> parse_anti (json_anti t) = Ok t.
Proof.
  destruct t as [z a b pu]. intros H. unfold good_anti in H. cbn in H. subst pu. unfold parse_anti, json_anti. cbn [a_zeta a_alpha a_beta anti_units].
  destruct z, a, b; enf; reflexivity.
Qed.
Lemma anti_pop t : good_anti t -> with_anti_units (pop2 "Cq" "D") t = t.
Proof. destruct t as [z a b pu]. unfold good_anti. cbn. intros ->. reflexivity. Qed.

(** ** Lookups after the reading of a table *)
Lemma opt_parse_round A (parse : jdict -> pyres A) (json : A -> jdict) (good : A -> Prop) (back : A -> A) d k o :
  (forall t, good t -> exists r, parse (json t) = Ok r /\ back r = t) -> on good o ->
  dict_lookup d k = (if kept (k, dict_or_none json o) then Some (dict_or_none json o) else None) ->
  exists r, opt_parse parse d k = Ok r /\ option_map back r = o /\ (o = None <-> r = None).
Proof.
  intros R G L. unfold opt_parse. rewrite L. destruct o as [t|]; cbn.
  - destruct (R t G) as (r & E & B). rewrite E. exists (Some r). cbn. rewrite B. repeat split; congruence.
  - exists None. repeat split.
Qed.
Lemma list_parse_round A (parse : jdict -> pyres A) (json : A -> jdict) d k l :
  Forall (fun t => parse (json t) = Ok t) l -> dict_lookup d k = Some (JList (map (fun t => JDict (json t)) l)) -> list_parse parse d k = Ok (Some l).
Proof.
  intros R L. unfold list_parse. rewrite L. assert (M : mapM (fun x => match x with JDict e => parse e | _ => Err TypeError end) (map (fun t => JDict (json t)) l) = Ok l).
  { clear L. induction R as [|t l E R IH]; [reflexivity|]. cbn [map mapM]. rewrite E. cbn [bind]. now rewrite IH. }
  now rewrite M.
Qed.
Lemma isotope_spin s n : In (s, n) isotope_data -> format_isotope_string s = Ok s /\ twice_spin s = Ok n.
Proof.
  intros H. assert (F : format_isotope_string s = Ok s) by (apply format_known; apply (in_map fst) in H; exact H).
  split; [exact F|]. unfold twice_spin. rewrite F. cbn [bind]. clear F. revert H.
  assert (N : NoDup (map fst isotope_data)).
  { assert (D : forall l : list string, (fix nd (l : list string) := match l with [] => true | x :: r => negb (existsb (String.eqb x) r) && nd r end) l = true -> NoDup l).
    { induction l as [|x r IH]; intros H; [constructor|]. apply andb_true_iff in H. destruct H as [H1 H2]. constructor; [|now apply IH].
      intros X. apply negb_true_iff in H1. assert (existsb (String.eqb x) r = true) by (apply existsb_exists; exists x; split; [exact X|apply String.eqb_refl]). congruence. }
    apply D. vm_compute. reflexivity. }
  intros H. pose proof (in_lookup isotope_data s n N H) as L. unfold dict_lookup in L.
  destruct (find _ isotope_data) as [[k m]|]; congruence.
Qed.
Lemma site_round s : good_site s -> parse_site (json_site s) = Ok s.
Proof.
  destruct s as [nm lb ds iso shift ss sa qd pu].
  intros (Gn & Gl & Gd & (n & Gi & Gq) & Gs & Ga & Gqd & Gu). cbn [s_name s_label s_description isotope isotropic_chemical_shift shielding_symmetric shielding_antisymmetric quadrupolar s_units] in *. subst pu.
  set (J := json_site _).
  assert (L : forall k, dict_lookup J k = match dict_lookup [("name", str_or_none nm); ("label", str_or_none lb); ("description", str_or_none ds);
                  ("isotope", JStr iso); ("isotropic_chemical_shift", JNum shift); ("shielding_symmetric", dict_or_none json_sym ss);
                  ("shielding_antisymmetric", dict_or_none json_anti sa); ("quadrupolar", dict_or_none json_sym qd)] k with
    | Some v => if kept (k, v) then Some (match dict_lookup [("isotropic_chemical_shift", "ppm")] k with Some u => print_unit u v | None => v end) else None
    | None => None end) by (intros k; apply lookup_json; nd).
  clearbody J. unfold parse_site.
  destruct (opt_parse_round _ parse_sym json_sym good_shielding (with_sym_units (pop2 "Cq" "D")) J "shielding_symmetric" ss shielding_round Gs (L _)) as (rs & E1 & B1 & _).
  rewrite E1. cbn [bind].
  destruct (opt_parse_round _ parse_anti json_anti good_anti (with_anti_units (pop2 "Cq" "D")) J "shielding_antisymmetric" sa
    ltac:(intros t Ht; exists t; split; [now apply anti_round|now apply anti_pop]) Ga (L _)) as (ra & E2 & B2 & _).
  rewrite E2. cbn [bind].
  destruct (opt_parse_round _ parse_sym json_sym good_quadrupolar (with_sym_units (pop2 "D" "zeta")) J "quadrupolar" qd quad_round Gqd (L _)) as (rq & E3 & B3 & Q3).
  rewrite E3. cbn [bind].
  assert (F : all_fit site_table J).
  { intros p sp v [HI|[]] HL. injection HI as <- <-. rewrite L in HL. cbn in HL. injection HL as <-. enf. discriminate. }
  destruct (parse_units_ok site_table J ltac:(nd) F) as (d' & E & K). rewrite E. cbn [bind]. rewrite no_units by (rewrite K, L; reflexivity). cbn [bind].
  unfold make_site.
  rewrite (read_str d' "name" nm Gn) by (rewrite K, L; reflexivity). rewrite (read_str d' "label" lb Gl) by (rewrite K, L; reflexivity).
  rewrite (read_str d' "description" ds Gd) by (rewrite K, L; reflexivity). cbn [bind].
  destruct (isotope_spin iso n Gi) as [I1 I2].
  assert (NE : String.eqb iso "" = false) by (apply String.eqb_neq; intros ->; discriminate I1).
  replace (dict_lookup d' "isotope") with (Some (JStr iso)) by (rewrite K, L; cbn; now rewrite NE). rewrite I1. cbn [bind].
  rewrite (read_def d' "isotropic_chemical_shift" (Single "dimensionless" "ppm") "ppm" shift 0 any "ppm") by (try apply ppm_fit; try reflexivity; rewrite K, L; reflexivity).
  cbn [bind]. rewrite B1, B2, B3.
  assert (S : match rq with Some _ => let* n0 := twice_spin iso in if (n0 <? 2)%Z then Err ValueError else Ok tt | None => Ok tt end = Ok tt).
  { destruct rq as [rq|]; [|reflexivity]. rewrite I2. cbn [bind]. assert (2 <= n)%Z by (apply Gq; intros X; apply Q3 in X; discriminate). now rewrite (proj2 (Z.ltb_ge n 2)). }
  rewrite S. cbn [bind]. unfold read_units, site_table. cbn [map fst snd]. rewrite single_unit. reflexivity.
Qed.

(** ** Couplings and spin systems *)
Lemma int_list_round l : int_list (JList (map (fun z => JNum (Qc_of_Z z)) l)) = Ok l.
Proof. unfold int_list. induction l as [|z l IH]; [reflexivity|]. cbn [map mapM]. rewrite int_of_Z. cbn [bind]. now rewrite IH. Qed.
Lemma coupling_round c : good_coupling c -> parse_coupling (json_coupling c) = Ok c.
Proof.
  destruct c as [nm lb ds si j js ja dp pu].
  intros (Gn & Gl & Gd & (a & b & Gi & Gab) & Gs & Ga & Gdp & Gu). cbn [c_name c_label c_description site_index isotropic_j j_symmetric j_antisymmetric dipolar c_units] in *. subst pu ja si.
  set (J := json_coupling _).
  assert (L : forall k, dict_lookup J k = match dict_lookup [("name", str_or_none nm); ("label", str_or_none lb); ("description", str_or_none ds);
                  ("site_index", JList (map (fun z => JNum (Qc_of_Z z)) [a; b])); ("isotropic_j", JNum j); ("j_symmetric", dict_or_none json_sym js);
                  ("j_antisymmetric", dict_or_none json_anti None); ("dipolar", dict_or_none json_sym dp)] k with
    | Some v => if kept (k, v) then Some (match dict_lookup [("isotropic_j", "Hz")] k with Some u => print_unit u v | None => v end) else None
    | None => None end) by (intros k; apply lookup_json; nd).
  clearbody J. unfold parse_coupling.
  assert (S : exists r, opt_parse parse_sym J "j_symmetric" = Ok r /\ option_map (with_sym_units j_units) r = js /\ match r with Some t => not_ppm (sym_units t) | None => Ok tt end = Ok tt).
  { assert (LJ : dict_lookup J "j_symmetric" = match js with Some t => Some (JDict (json_sym t)) | None => None end) by (rewrite L; destruct js; reflexivity).
    unfold opt_parse. rewrite LJ. destruct js as [t|]; [|exists None; auto]. destruct (j_round t Gs) as (r & R1 & R2 & R3). rewrite R1. exists (Some r). cbn [option_map]. rewrite R3. auto. }
  destruct S as (rs & E1 & B1 & P1). rewrite E1. cbn [bind]. rewrite P1. cbn [bind].
  replace (opt_parse parse_anti J "j_antisymmetric") with (@Ok (option anti_tensor) None) by (unfold opt_parse; rewrite L; reflexivity). cbn [bind].
  destruct (opt_parse_round _ parse_sym json_sym good_dipolar (with_sym_units (pop2 "Cq" "zeta")) J "dipolar" dp dipolar_round Gdp (L _)) as (rq & E3 & B3 & _).
  rewrite E3. cbn [bind].
  assert (F : all_fit coupling_table J).
  { intros p sp v [HI|[]] HL. injection HI as <- <-. rewrite L in HL. cbn in HL. injection HL as <-. enf. discriminate. }
  destruct (parse_units_ok coupling_table J ltac:(nd) F) as (d' & E & K). rewrite E. cbn [bind]. rewrite no_units by (rewrite K, L; reflexivity). cbn [bind].
  unfold make_coupling.
  rewrite (read_str d' "name" nm Gn) by (rewrite K, L; reflexivity). rewrite (read_str d' "label" lb Gl) by (rewrite K, L; reflexivity).
  rewrite (read_str d' "description" ds Gd) by (rewrite K, L; reflexivity). cbn [bind].
  replace (dict_lookup d' "site_index") with (Some (JList (map (fun z => JNum (Qc_of_Z z)) [a; b]))) by (rewrite K, L; reflexivity).
  rewrite int_list_round. cbn [bind]. rewrite (proj2 (Z.eqb_neq a b) Gab). cbn [bind].
  rewrite (read_def d' "isotropic_j" (Single "frequency" "Hz") "Hz" j 0 any "Hz") by (try apply hz_fit; try reflexivity; rewrite K, L; reflexivity).
  cbn [bind]. rewrite B1, B3. unfold read_units, coupling_table. cbn [map fst snd]. rewrite single_unit. reflexivity.
Qed.
Lemma list_parse_none A (parse : jdict -> pyres A) d k : dict_lookup d k = None -> list_parse parse d k = Ok None.
Proof. intros H. unfold list_parse. now rewrite H. Qed.
Lemma system_round y : good_system y -> parse_system (json_system y) = Ok y.
Proof.
  destruct y as [nm lb ds ss cs ab tp pu].
  intros (Gn & Gl & Gd & Gs & Gc & G0 & G1 & Gu). cbn [y_name y_label y_description sites couplings abundance transition_pathways y_units] in *. subst pu.
  set (J := json_system _).
  assert (L : forall k, dict_lookup J k = match dict_lookup [("name", str_or_none nm); ("label", str_or_none lb); ("description", str_or_none ds);
                  ("sites", JList (map (fun s => JDict (json_site s)) ss));
                  ("couplings", match cs with Some l => JList (map (fun c => JDict (json_coupling c)) l) | None => JNone end);
                  ("abundance", JNum ab); ("transition_pathways", match tp with Some l => JList (map JPath l) | None => JNone end)] k with
    | Some v => if kept (k, v) then Some (match dict_lookup [("abundance", "pct")] k with Some u => print_unit u v | None => v end) else None
    | None => None end) by (intros k; apply lookup_json; nd).
  clearbody J. unfold parse_system.
  rewrite (list_parse_round _ parse_site json_site J "sites" ss); [|eapply Forall_impl; [|exact Gs]; intros s; apply site_round|rewrite L; reflexivity].
  cbn [bind].
  assert (C : list_parse parse_coupling J "couplings" = Ok cs).
  { destruct cs as [l|]; [|apply list_parse_none; rewrite L; reflexivity].
    apply (list_parse_round _ parse_coupling json_coupling); [|rewrite L; reflexivity]. eapply Forall_impl; [|exact Gc]. intros c. apply coupling_round. }
  rewrite C. cbn [bind].
  assert (F : all_fit system_table J).
  { intros p sp v [HI|[]] HL. injection HI as <- <-. rewrite L in HL. cbn in HL. injection HL as <-. enf. discriminate. }
  destruct (parse_units_ok system_table J ltac:(nd) F) as (d' & E & K). rewrite E. cbn [bind]. rewrite no_units by (rewrite K, L; reflexivity). cbn [bind].
  unfold make_system.
  rewrite (read_str d' "name" nm Gn) by (rewrite K, L; reflexivity). rewrite (read_str d' "label" lb Gl) by (rewrite K, L; reflexivity).
  rewrite (read_str d' "description" ds Gd) by (rewrite K, L; reflexivity). cbn [bind].
  rewrite (read_def d' "abundance" (Single "dimensionless" "pct") "pct" ab _ (fun q => Qc_leb 0 q && Qc_leb q (Q2Qc (100 # 1))) "pct");
    [|apply pct_fit|now rewrite !Qc_leb_true|rewrite K, L; reflexivity].
  cbn [bind]. rewrite K, L. cbn [dict_lookup find fst snd String.eqb Ascii.eqb Bool.eqb system_table].
  assert (T : forall l, mapM (fun x => match x with JPath p => Ok p | _ => Err ValueError end) (map JPath l) = Ok l).
  { induction l as [|p l IH]; [reflexivity|]. cbn [map mapM bind]. now rewrite IH. }
  unfold read_units, system_table. cbn [map fst snd]. rewrite single_unit.
  destruct tp as [l|]; cbn [kept snd]; [|reflexivity]. rewrite T. reflexivity.
Qed.

(** ** Queries and events *)
Lemma numbers_round l : mapM (fun x => match x with JNum q => Ok q | _ => Err ValueError end) (map JNum l) = Ok l.
Proof. induction l as [|q l IH]; [reflexivity|]. cbn [map mapM bind]. now rewrite IH. Qed.
Lemma transition_round t : make_transition (json_transition t) = Ok t.
Proof. destruct t as [i f]. unfold make_transition, json_transition. cbn. rewrite !numbers_round. reflexivity. Qed.
Lemma transitions_round l : mapM make_transition (map json_transition l) = Ok l.
Proof. induction l as [|t l IH]; [reflexivity|]. cbn [map mapM]. rewrite transition_round. cbn [bind]. now rewrite IH. Qed.
Lemma query_round q : q_P q <> None -> make_query (json_query q) = Ok q.
Proof.
  destruct q as [P d F t]. cbn [q_P]. intros H. destruct P as [P|]; [|congruence].
  destruct d, F, t; unfold make_query, json_query; cbn; rewrite ?transitions_round; reflexivity.
Qed.
Lemma lookup_pop A (d : list (string * A)) k j : dict_lookup (dict_pop d k) j = if String.eqb j k then None else dict_lookup d j.
Proof. apply DictProofs.lookup_remove. Qed.
Lemma strings_eqb_iff a : forall b, strings_eqb a b = true <-> a = b.
Proof.
  induction a as [|x a IH]; intros [|y b]; cbn; try (split; congruence). rewrite andb_true_iff, String.eqb_eq, IH. split; [intros [-> ->]; reflexivity|intros [= -> ->]; auto].
Qed.
Definition event_entries (d : jdict) (e : event) : Prop :=
  dict_lookup d "fraction" = (if Qc_eq_bool (fraction e) 1 then None else Some (JNum (fraction e))) /\
  dict_lookup d "magnetic_flux_density" = Some (JQty (magnetic_flux_density e) "T") /\
  dict_lookup d "rotor_frequency" = Some (JQty (rotor_frequency e) "Hz") /\
  dict_lookup d "rotor_angle" = Some (JQty (rotor_angle e) "rad") /\
  dict_lookup d "freq_contrib" = (if strings_eqb (freq_contrib e) freq_list_all then None else Some (JList (map JStr (freq_contrib e)))) /\
  dict_lookup d "transition_query" = Some (JDict (json_query (transition_query e))) /\
  dict_lookup d "property_units" = None.
Lemma event_read d e : good_event e -> event_entries d e -> parse_event d = Ok e.
Proof.
  destruct e as [f b r a fc q pu]. intros (Gb & Gr & Ga & Ga' & Gf & Gq & Gu) (L1 & L2 & L3 & L4 & L5 & L6 & L7).
  cbn [fraction magnetic_flux_density rotor_frequency rotor_angle freq_contrib transition_query e_units] in *. subst pu.
  assert (F : all_fit event_table d).
  { intros p sp v HI HL. cbn in HI. repeat (destruct HI as [HI|HI]; [injection HI as <- <-|]); try contradiction.
    - rewrite L2 in HL. injection HL as <-. enf. discriminate.
    - rewrite L3 in HL. injection HL as <-. enf. discriminate.
    - rewrite L4 in HL. injection HL as <-. enf. discriminate. }
  unfold parse_event. destruct (parse_units_ok event_table d ltac:(nd) F) as (d' & E & K). rewrite E. cbn [bind]. rewrite no_units by (rewrite K; exact L7). cbn [bind].
  unfold make_event.
  assert (E1 : def_num d' "fraction" 1 any = Ok f).
  { unfold def_num. rewrite K. cbn [dict_lookup find fst snd String.eqb Ascii.eqb Bool.eqb event_table]. rewrite L1. destruct (Qc_eq_bool f 1) eqn:X; [|reflexivity]. apply Qc_eqb_iff in X. now subst. }
  rewrite E1. cbn [bind].
  rewrite (read_def d' "magnetic_flux_density" (Single "magnetic flux density" "T") "T" b _ non_negative "T"); [|apply T_fit|now apply Qc_leb_true|rewrite K, L2; reflexivity].
  rewrite (read_def d' "rotor_frequency" (Single "frequency" "Hz") "Hz" r _ non_negative "Hz"); [|apply hz_fit|now apply Qc_leb_true|rewrite K, L3; reflexivity].
  rewrite (read_def d' "rotor_angle" (Single "angle" "rad") "rad" a _ angle_range "rad"); [|apply rad_fit|unfold angle_range; now rewrite !Qc_leb_true|rewrite K, L4; reflexivity].
  cbn [bind].
  assert (M : mapM (fun x => match x with JStr s => if existsb (String.eqb s) freq_list_all then Ok s else Err ValueError | _ => Err ValueError end) (map JStr fc) = Ok fc).
  { clear - Gf. induction fc as [|s l IH]; [reflexivity|]. cbn [map mapM].
    assert (X : existsb (String.eqb s) freq_list_all = true) by (apply existsb_exists; exists s; split; [apply Gf; now left|apply String.eqb_refl]).
    rewrite X. cbn [bind]. rewrite IH; [reflexivity|]. intros y Hy. apply Gf. now right. }
  replace (dict_lookup d' "freq_contrib") with (if strings_eqb fc freq_list_all then None else Some (JList (map JStr fc))) by (rewrite K, <- L5; reflexivity).
  replace (dict_lookup d' "transition_query") with (Some (JDict (json_query q))) by (rewrite K, <- L6; reflexivity).
  rewrite (query_round q Gq).
  unfold read_units, event_table. cbn [map fst snd]. rewrite !single_unit.
  destruct (strings_eqb fc freq_list_all) eqn:X.
  - apply strings_eqb_iff in X. subst fc. reflexivity.
  - rewrite M. reflexivity.
Qed.
Lemma event_json e : good_event e -> event_entries (json_event e) e.
Proof.
  destruct e as [f b r a fc q pu]. intros (Gb & Gr & Ga & Ga' & Gf & Gq & Gu).
  cbn [fraction magnetic_flux_density rotor_frequency rotor_angle freq_contrib transition_query e_units] in *. subst pu.
  unfold event_entries, json_event. cbn [fraction magnetic_flux_density rotor_frequency rotor_angle freq_contrib transition_query e_units].
  destruct (Qc_eq_bool f 1), (strings_eqb fc freq_list_all); rewrite ?lookup_pop; cbn [String.eqb Ascii.eqb Bool.eqb]; rewrite ?lookup_json by nd; repeat split.
Qed.
Lemma event_round e : good_event e -> parse_event (json_event e) = Ok e.
Proof. intros G. apply event_read; [exact G|now apply event_json]. Qed.

(** ** Spectral dimensions *)
Definition dim_entries (d : jdict) (x : dimension) (u v w : string) : Prop :=
  dict_lookup d "count" = Some (JNum (Qc_of_Z (count x))) /\
  dict_lookup d "spectral_width" = Some (print_unit u (JNum (spectral_width x))) /\
  dict_lookup d "reference_offset" = Some (print_unit v (JNum (reference_offset x))) /\
  dict_lookup d "origin_offset" = (if kept ("origin_offset", num_or_none (origin_offset x)) then Some (print_unit w (num_or_none (origin_offset x))) else None) /\
  dict_lookup d "label" = (if kept ("label", str_or_none (d_label x)) then Some (str_or_none (d_label x)) else None) /\
  dict_lookup d "description" = (if kept ("description", str_or_none (d_description x)) then Some (str_or_none (d_description x)) else None) /\
  dict_lookup d "property_units" = None.
Lemma Qc_pos q : (0 < q)%Qc -> Qc_leb 0 q && negb (Qc_eq_bool q 0) = true.
Proof.
  intros H. rewrite Qc_leb_true by now apply Qclt_le_weak. rewrite Qc_eqb_false; [reflexivity|]. intros ->. now apply (Qclt_not_eq 0 0).
Qed.
Lemma dim_read d x u v w : (0 < count x)%Z -> (0 < spectral_width x)%Qc -> no_empty (d_label x) -> no_empty (d_description x) ->
  hz_ppm u -> hz_ppm v -> (w = "Hz" \/ (w = "ppm" /\ origin_offset x <> None)) -> d_units x = [("spectral_width", u); ("reference_offset", v); ("origin_offset", w)] ->
  dim_entries d x u v w -> list_parse parse_event d "events" = Ok (Some (events x)) -> parse_dim d = Ok x.
Proof.
  destruct x as [c sw ro oo l ds ev pu]. cbn [count spectral_width reference_offset origin_offset d_label d_description events d_units].
  intros Gc Gw Gl Gd Hu Hv Hw -> (L1 & L2 & L3 & L4 & L5 & L6 & L7) LE. cbn [count spectral_width reference_offset origin_offset d_label d_description events d_units] in *.
  assert (Hw' : w = "Hz" \/ w = "ppm") by (destruct Hw as [|[]]; auto).
  unfold parse_dim. rewrite LE. cbn [bind].
  assert (F : all_fit dim_table d).
  { intros p sp y HI HL. cbn in HI. repeat (destruct HI as [HI|HI]; [injection HI as <- <-|]); try contradiction.
    - rewrite L2 in HL. injection HL as <-. change (fit hz_or_ppm (print_unit u (JNum sw)) <> None). rewrite dim_fit by exact Hu. discriminate.
    - rewrite L3 in HL. injection HL as <-. change (fit hz_or_ppm (print_unit v (JNum ro)) <> None). rewrite dim_fit by exact Hv. discriminate.
    - rewrite L4 in HL. destruct oo as [oo|]; cbn [kept snd num_or_none] in HL; [|discriminate]. injection HL as <-. change (fit hz_or_ppm (print_unit w (JNum oo)) <> None). rewrite dim_fit by exact Hw'. discriminate. }
  destruct (parse_units_ok dim_table d ltac:(nd) F) as (d' & E & K). rewrite E. cbn [bind]. rewrite no_units by (rewrite K; exact L7). cbn [bind].
  unfold make_dim.
  assert (E1 : def_int d' "count" 1024 (fun z => (0 <? z)%Z) = Ok c).
  { unfold def_int. rewrite K. cbn [dict_lookup find fst snd String.eqb Ascii.eqb Bool.eqb dim_table]. rewrite L1. rewrite int_of_Z. now rewrite (proj2 (Z.ltb_lt 0 c)). }
  rewrite E1. cbn [bind].
  rewrite (read_def d' "spectral_width" hz_or_ppm u sw _ (fun q => Qc_leb 0 q && negb (Qc_eq_bool q 0)) u); [|now apply dim_fit|now apply Qc_pos|rewrite K, L2; reflexivity].
  rewrite (read_def d' "reference_offset" hz_or_ppm v ro _ any v); [|now apply dim_fit|reflexivity|rewrite K, L3; reflexivity].
  rewrite (read_opt d' "origin_offset" hz_or_ppm w oo any w); [|intros y _; split; [now apply dim_fit|reflexivity]|rewrite K, L4; reflexivity].
  rewrite (read_str d' "label" l Gl) by (rewrite K; exact L5). rewrite (read_str d' "description" ds Gd) by (rewrite K; exact L6). cbn [bind].
  f_equal. f_equal. unfold read_units, dim_table. cbn [map fst snd]. rewrite L2, L3, L4. rewrite !dim_fit by assumption.
  destruct oo as [oo|]; cbn [kept snd num_or_none].
  - now rewrite dim_fit.
  - destruct Hw as [->|[_ Hw]]; [reflexivity|congruence].
Qed.
Lemma dim_json x u v w : d_units x = [("spectral_width", u); ("reference_offset", v); ("origin_offset", w)] -> dim_entries (json_dim x) x u v w /\
  dict_lookup (json_dim x) "events" = Some (JList (map (fun e => JDict (json_event e)) (events x))).
Proof. intros U. unfold dim_entries, json_dim. rewrite U. rewrite !lookup_json by nd. repeat split. Qed.
Lemma dim_round x : good_dim x -> parse_dim (json_dim x) = Ok x.
Proof.
  intros (Gc & Gw & Gl & Gd & Ge & u & v & w & Hu & Hv & Hw & U). destruct (dim_json x u v w U) as [D E].
  apply (dim_read _ x u v w); auto. apply (list_parse_round _ parse_event json_event); [|exact E]. eapply Forall_impl; [|exact Ge]. intros e. apply event_round.
Qed.

(** ** Methods *)
Lemma same_text_eq a b : same_text a b = true -> a = b.
Proof. destruct a, b; cbn; try discriminate. rewrite andb_true_iff, Qc_eqb_iff, String.eqb_eq. now intros [-> ->]. Qed.
(** The entries that are equal to the shared ones are removed. *)
Lemma strip_ok (glb : jdict) : forall ev, NoDup (map fst glb) -> (forall k, In k (map fst glb) -> dict_lookup ev k <> None) ->
  exists ev', for_each glb (fun kv ev => match dict_lookup ev (fst kv) with None => Err KeyError
                                         | Some x => Ok (if same_text x (snd kv) then dict_pop ev (fst kv) else ev) end) ev = Ok ev' /\
  forall k, dict_lookup ev' k = match dict_lookup glb k, dict_lookup ev k with
                                | Some v, Some x => if same_text x v then None else Some x
                                | _, o => o end.
Proof.
  induction glb as [|[p v] glb IH]; intros ev N H.
  - exists ev. split; [reflexivity|]. intros k. reflexivity.
  - cbn [map fst] in N. inversion N as [|? ? N1 N2]; subst. cbn [for_each fst snd].
    destruct (dict_lookup ev p) as [x|] eqn:L; [|now elim (H p (or_introl eq_refl))]. cbn [bind].
    set (ev1 := if same_text x v then dict_pop ev p else ev).
    assert (O : forall k, k <> p -> dict_lookup ev1 k = dict_lookup ev k).
    { intros k Hk. unfold ev1. destruct (same_text x v); [|reflexivity]. rewrite lookup_pop. destruct (String.eqb_spec k p); [contradiction|reflexivity]. }
    destruct (IH ev1 N2) as (ev' & E & K).
    { intros k Hk. rewrite O by (intros ->; contradiction). apply H. now right. }
    exists ev'. split; [exact E|]. intros k. rewrite K, lookup_cons. destruct (String.eqb_spec p k) as [<-|NE].
    + assert (Z : dict_lookup glb p = None) by now apply lookup_none. rewrite Z, L. unfold ev1. destruct (same_text x v); [|exact L].
      rewrite lookup_pop, String.eqb_refl. reflexivity.
    + now rewrite O by congruence.
Qed.
Lemma fill_lookup (glb : jdict) ev0 : forall ev k, NoDup (map fst glb) -> (forall j, In j (map fst glb) -> dict_lookup ev j = dict_lookup ev0 j) ->
  dict_lookup (fold_left (fun e kv => if has_key ev0 (fst kv) then e else dict_set e (fst kv) (snd kv)) glb ev) k =
  match dict_lookup ev k with Some x => Some x | None => dict_lookup glb k end.
Proof.
  induction glb as [|[p v] glb IH]; intros ev k N S; [cbn; now destruct (dict_lookup ev k)|].
  cbn [map fst] in N. inversion N as [|? ? N1 N2]; subst. cbn [fold_left fst snd]. rewrite lookup_cons.
  pose proof (S p (or_introl eq_refl)) as SP. unfold has_key at 2. destruct (dict_lookup ev0 p) as [x|] eqn:L.
  - rewrite IH; [|exact N2|intros j Hj; apply S; now right]. destruct (dict_lookup ev k) eqn:M; [reflexivity|]. destruct (String.eqb_spec p k) as [->|]; [congruence|reflexivity].
  - rewrite IH; [|exact N2|].
    + rewrite lookup_set. destruct (String.eqb_spec p k) as [->|]; [|reflexivity]. now rewrite SP.
    + intros j Hj. rewrite lookup_set. destruct (String.eqb_spec p j) as [->|]; [contradiction|]. apply S. now right.
Qed.
Definition shared_entries (e : event) : jdict :=
  [("magnetic_flux_density", JQty (magnetic_flux_density e) "T"); ("rotor_frequency", JQty (rotor_frequency e) "Hz"); ("rotor_angle", JQty (rotor_angle e) "rad")].
Lemma event_strip e0 e : good_event e -> exists ev, strip_event false (shared_entries e0) (json_event e) = Ok ev /\ ev <> [] /\
  event_entries (fill_event (shared_entries e0) ev) e.
Proof.
  intros G. pose proof (event_json e G) as (L1 & L2 & L3 & L4 & L5 & L6 & L7).
  destruct (strip_ok (shared_entries e0) (json_event e)) as (ev & E & K); [nd| |].
  { intros k Hk. cbn in Hk. destruct Hk as [<-|[<-|[<-|[]]]]; congruence. }
  exists ev. split; [unfold strip_event; rewrite E; reflexivity|]. split.
  { intros ->. specialize (K "transition_query"). cbn [shared_entries dict_lookup find fst snd String.eqb Ascii.eqb Bool.eqb] in K. rewrite L6 in K. discriminate. }
  assert (A : forall k, dict_lookup (fill_event (shared_entries e0) ev) k = match dict_lookup (json_event e) k with Some x => Some x | None => dict_lookup (shared_entries e0) k end).
  { intros k. unfold fill_event. rewrite fill_lookup by (try reflexivity; nd). rewrite K.
    destruct (dict_lookup (shared_entries e0) k) as [v|] eqn:S.
    - destruct (dict_lookup (json_event e) k) as [x|] eqn:X; [|reflexivity]. destruct (same_text x v) eqn:T; [|reflexivity]. apply same_text_eq in T. now subst.
    - reflexivity. }
  unfold event_entries. rewrite !A, L1, L2, L3, L4, L5, L6, L7. repeat split; try (destruct (Qc_eq_bool _ _)); try (destruct (strings_eqb _ _)); reflexivity.
Qed.
Lemma mapM_exists A B (f : A -> pyres B) (Q : A -> B -> Prop) l : (forall x, In x l -> exists y, f x = Ok y /\ Q x y) -> exists r, mapM f l = Ok r /\ Forall2 Q l r.
Proof.
  induction l as [|x l IH]; intros H; [exists []; split; [reflexivity|constructor]|].
  destruct (H x (or_introl eq_refl)) as (y & E & Y). destruct IH as (r & R & F); [intros z Hz; apply H; now right|].
  exists (y :: r). cbn [mapM]. rewrite E. cbn [bind]. rewrite R. split; [reflexivity|now constructor].
Qed.
Lemma mapM_map A B X (f : B -> pyres X) (g : A -> B) l : mapM f (map g l) = mapM (fun a => f (g a)) l.
Proof. induction l as [|x l IH]; [reflexivity|]. cbn [map mapM]. now rewrite IH. Qed.
Lemma mapM_forall2 A B (f : B -> pyres A) l r : Forall2 (fun x y => f y = Ok x) l r -> mapM f r = Ok l.
Proof. induction 1 as [|x y l r E F IH]; [reflexivity|]. cbn [mapM]. rewrite E. cbn [bind]. now rewrite IH. Qed.
(** A dimension of a method, printed, and read after the shared values are put into its events. *)
Lemma dim_strip e0 x : good_dim x -> events x <> [] -> exists y z, strip_dim false (shared_entries e0) (json_dim x) = Ok y /\
  expand_dim (shared_entries e0) (JDict y) = Ok (JDict z) /\ parse_dim z = Ok x.
Proof.
  intros (Gc & Gw & Gl & Gd & Ge & u & v & w & Hu & Hv & Hw & U) NE. destruct (dim_json x u v w U) as [D E].
  destruct (mapM_exists event jdict (fun e => strip_event false (shared_entries e0) (json_event e))
              (fun e ev => ev <> [] /\ parse_event (fill_event (shared_entries e0) ev) = Ok e) (events x)) as (evs & M & F2).
  { intros e He. rewrite Forall_forall in Ge. destruct (event_strip e0 e (Ge e He)) as (ev & S & N & R). exists ev. split; [exact S|]. split; [exact N|].
    apply event_read; [now apply Ge|exact R]. }
  assert (B : forallb (fun ev : jdict => match ev with [] => true | _ => false end) evs = false).
  { destruct F2 as [|e ev l r [N _] F2]; [congruence|]. destruct ev; [congruence|reflexivity]. }
  exists (dict_set (json_dim x) "events" (JList (map JDict evs))),
    (dict_set (dict_set (json_dim x) "events" (JList (map JDict evs))) "events" (JList (map (fun ev => JDict (fill_event (shared_entries e0) ev)) evs))).
  split; [|split].
  - unfold strip_dim. rewrite E. rewrite mapM_map. etransitivity; [apply (f_equal (fun r => bind r _) M)|]. cbn [bind]. etransitivity; [apply (f_equal (fun b : bool => Ok (if b then _ else _)) B)|]. reflexivity.
  - unfold expand_dim. cbn [as_dict bind]. rewrite lookup_set, String.eqb_refl. cbn [as_list bind]. rewrite mapM_map. cbn [as_dict bind].
    rewrite (BaseProofs.mapM_ok _ (fun ev => JDict (fill_event (shared_entries e0) ev))) by reflexivity. reflexivity.
  - apply (dim_read _ x u v w); auto.
    + destruct D as (D1 & D2 & D3 & D4 & D5 & D6 & D7). unfold dim_entries. rewrite !lookup_set. cbn [String.eqb Ascii.eqb Bool.eqb]. auto 10.
    + unfold list_parse. rewrite lookup_set, String.eqb_refl. rewrite mapM_map.
      assert (R : mapM (fun ev => parse_event (fill_event (shared_entries e0) ev)) evs = Ok (events x)).
      { clear - F2. induction F2 as [|e ev l r [_ Y] F IH]; [reflexivity|]. cbn [mapM]. rewrite Y. cbn [bind]. now rewrite IH. }
      rewrite R. reflexivity.
Qed.

Lemma lookup_filter A (f : string * A -> bool) (g : A -> bool) (items : list (string * A)) k : (forall p v, f (p, v) = g v) -> NoDup (map fst items) ->
  dict_lookup (filter f items) k = match dict_lookup items k with Some v => if g v then Some v else None | None => None end.
Proof.
  intros FG. induction items as [|[p v] r IH]; intros N; [reflexivity|]. cbn [map fst] in N. inversion N as [|? ? N1 N2]; subst.
  cbn [filter]. rewrite FG, lookup_cons. destruct (g v) eqn:G.
  - rewrite lookup_cons. destruct (String.eqb_spec p k); [now rewrite G|]. now apply IH.
  - destruct (String.eqb_spec p k) as [->|]; [|now apply IH]. rewrite G. apply lookup_none. intros X. apply N1. apply in_map_iff in X. destruct X as ([a b] & X1 & X2).
    apply filter_In in X2. destruct X2 as [X2 _]. apply (in_map fst) in X2. cbn in *. now subst.
Qed.
Lemma array_round n m : good_matrix n m -> as_array (json_matrix m) = Ok m /\ check_affine n m = Ok m.
Proof.
  intros ((x & r & E & NZ) & LE & R). split.
  - destruct m as [l|l]; cbn [json_matrix as_array].
    + unfold numbers. now rewrite numbers_round.
    + destruct l as [|r0 l]; [discriminate E|]. cbn [map numbers mapM bind].
      unfold numbers at 1. rewrite numbers_round. cbn [bind]. 
      assert (M : mapM (fun x0 => match x0 with JList r1 => numbers r1 | _ => Err ValueError end) (map (fun r1 => JList (map JNum r1)) l) = Ok l).
      { rewrite mapM_map. clear - l. induction l as [|y l IH]; [reflexivity|]. cbn [mapM]. unfold numbers at 1. rewrite numbers_round. cbn [bind]. now rewrite IH. }
      rewrite M. cbn [bind]. assert (B : forallb (fun s => Nat.eqb (length s) (length r0)) l = true).
      { apply forallb_forall. intros s Hs. rewrite (R s r0) by (cbn; auto). apply Nat.eqb_refl. }
      now rewrite B.
  - unfold check_affine. rewrite LE, Nat.eqb_refl, E. cbn [negb]. now rewrite Qc_eqb_false.
Qed.
Lemma pop_all A ks : forall (d : list (string * A)) k, dict_lookup (fold_left dict_pop ks d) k = if existsb (String.eqb k) ks then None else dict_lookup d k.
Proof.
  induction ks as [|p ks IH]; intros d k; [reflexivity|]. cbn [fold_left existsb]. rewrite IH, lookup_pop. destruct (existsb _ ks); [now rewrite orb_true_r|]. now rewrite orb_false_r.
Qed.
Lemma opt_str_any d k o : dict_lookup d k = match o with Some s => Some (JStr s) | None => None end -> opt_str d k = Ok o.
Proof. intros H. unfold opt_str. rewrite H. now destruct o. Qed.
Lemma opt_dict_any d k o : dict_lookup d k = match o with Some x => Some (JDict x) | None => None end -> opt_dict d k None = Ok o.
Proof. intros H. unfold opt_dict. rewrite H. now destruct o. Qed.
Lemma channels_round l : Forall (fun c => exists n, In (c, n) isotope_data) l ->
  mapM (fun x => match x with JStr s => format_isotope_string s | _ => Err ValueError end) (map JStr l) = Ok l.
Proof.
  induction 1 as [|c l [n H] F IH]; [reflexivity|]. cbn [map mapM]. destruct (isotope_spin c n H) as [-> _]. cbn [bind]. now rewrite IH.
Qed.
Lemma method_round m : good_method m -> exists d, json_method m = Ok d /\ parse_method d = Ok m.
Proof.
  destruct m as [nm lb ds ch dm af si ex]. intros (Gn & Gc & Gd & Gdim & Gev & Ga).
  cbn [m_name m_label m_description channels dims affine simulation experiment] in *.
  assert (NM : match nm with Some n => existsb (String.eqb n) NAMED_METHODS | None => false end = false).
  { destruct nm as [n|]; [|reflexivity]. apply not_true_iff_false. intros X. apply existsb_exists in X. destruct X as (y & Y1 & Y2). apply String.eqb_eq in Y2. subst y. now apply (Gn n). }
  destruct dm as [|x0 dm]; [congruence|]. set (all := x0 :: dm) in *.
  assert (E0 : exists e0 es, events x0 = e0 :: es).
  { inversion Gev as [|? ? Y _]; subst. destruct (events x0) as [|e0 es]; [congruence|eauto]. }
  destruct E0 as (e0 & es & E0).
  set (G := shared_entries e0).
  destruct (mapM_exists dimension jval (fun x => let* y := strip_dim false G (json_dim x) in Ok (JDict y))
     (fun x y => exists z, expand_dim G y = Ok (JDict z) /\ parse_dim z = Ok x) all) as (dd & M & F2).
  { intros x Hx. rewrite Forall_forall in Gdim, Gev. destruct (dim_strip e0 x (Gdim x Hx) (Gev x Hx)) as (y & z & S & X & P).
    exists (JDict y). split; [|exists z; split; assumption]. unfold G. rewrite S. reflexivity. }
  set (items := [("name", str_or_none nm); ("label", str_or_none lb); ("description", str_or_none ds);
                  ("channels", JList (map JStr ch)); ("spectral_dimensions", JList dd)] ++ G ++
                 [("affine_matrix", match af with Some a => json_matrix a | None => JNone end);
                  ("simulation", dict_or_none (fun d => d) si); ("experiment", dict_or_none (fun d => d) ex)]).
  exists (filter (fun kv => match snd kv with JNone => false | _ => true end) items).
  split.
  { unfold json_method. cbn [dims m_name m_label m_description channels affine simulation experiment]. unfold all. rewrite E0. fold (shared_entries e0). fold G. fold all.
    rewrite NM. rewrite M. reflexivity. }
  set (J := filter _ items).
  assert (L : forall k, dict_lookup J k = match dict_lookup items k with Some v => if (match v with JNone => false | _ => true end) then Some v else None | None => None end).
  { intros k. apply (lookup_filter _ _ (fun v => match v with JNone => false | _ => true end)); [reflexivity|]. unfold items. nd. }
  assert (LD : dict_lookup J "spectral_dimensions" = Some (JList dd)) by (rewrite L; reflexivity).
  unfold parse_method. rewrite LD. unfold expand. rewrite LD. cbn [as_list bind].
  assert (GL : globals_of J = G).
  { unfold globals_of, list_g. cbn [fold_left]. rewrite !L. reflexivity. }
  rewrite GL.
  assert (X : exists zs, mapM (expand_dim G) dd = Ok (map JDict zs) /\ mapM parse_dim zs = Ok all).
  { clear - F2. induction F2 as [|x y l r (z & X & P) F IH]; [exists []; split; reflexivity|]. destruct IH as (zs & E & Q).
    exists (z :: zs). cbn [mapM map]. rewrite X. cbn [bind]. rewrite E, P. cbn [bind]. rewrite Q. split; reflexivity. }
  destruct X as (zs & EX & PZ). rewrite EX. cbn [bind].
  set (d2 := fold_left dict_pop (map fst G) (dict_set J "spectral_dimensions" (JList (map JDict zs)))).
  assert (L2 : forall k, dict_lookup d2 k = if existsb (String.eqb k) (map fst G) then None else if String.eqb "spectral_dimensions" k then Some (JList (map JDict zs)) else dict_lookup J k).
  { intros k. unfold d2. rewrite pop_all, lookup_set. reflexivity. }
  clearbody d2. assert (LP : list_parse parse_dim d2 "spectral_dimensions" = Ok (Some all)).
  { unfold list_parse. rewrite L2. cbn [G shared_entries map fst existsb String.eqb Ascii.eqb Bool.eqb orb]. rewrite mapM_map. exact (f_equal (fun r => bind r (fun r => Ok (Some r))) PZ). }
  rewrite LP. cbn [bind]. rewrite no_units by (rewrite L2, L; reflexivity). cbn [bind]. unfold make_method.
  rewrite (opt_str_any d2 "name" nm) by (rewrite L2, L; destruct nm; reflexivity).
  rewrite (opt_str_any d2 "label" lb) by (rewrite L2, L; destruct lb; reflexivity).
  rewrite (opt_str_any d2 "description" ds) by (rewrite L2, L; destruct ds; reflexivity). cbn [bind].
  replace (dict_lookup d2 "channels") with (Some (JList (map JStr ch))) by (rewrite L2, L; reflexivity).
  rewrite channels_round by exact Gc. cbn [bind].
  rewrite (opt_dict_any d2 "simulation" si) by (rewrite L2, L; destruct si; reflexivity).
  rewrite (opt_dict_any d2 "experiment" ex) by (rewrite L2, L; destruct ex; reflexivity).
  replace (dict_lookup d2 "affine_matrix") with (match af with Some a => Some (json_matrix a) | None => None end)
    by (rewrite L2, L; destruct af as [[?|?]|]; reflexivity).
  destruct af as [a|]; [|reflexivity]. destruct (array_round _ a Ga) as [A1 A2].
  destruct (json_matrix a) eqn:JM; try (destruct a; discriminate JM). rewrite A1. cbn [bind]. fold all in A2. rewrite A2. reflexivity.
Qed.
Lemma config_round c : good_config c -> make_config (json_config c) = Ok c.
Proof.
  destruct c as [n v i s]. intros (G1 & G2 & G3 & G4). cbn [number_of_sidebands integration_density integration_volume decompose_spectrum] in *.
  unfold make_config, json_config, def_int, def_literal. cbn [number_of_sidebands integration_density integration_volume decompose_spectrum dict_lookup find fst snd String.eqb Ascii.eqb Bool.eqb].
  rewrite !int_of_Z. rewrite (proj2 (Z.ltb_lt 0 n) G1), (proj2 (Z.ltb_lt 0 i) G2). cbn [bind].
  assert (X : existsb (String.eqb v) ["octant"; "hemisphere"] = true) by (apply existsb_exists; exists v; split; [exact G3|apply String.eqb_refl]).
  assert (Y : existsb (String.eqb s) ["none"; "spin_system"] = true) by (apply existsb_exists; exists s; split; [exact G4|apply String.eqb_refl]).
  rewrite X, Y. reflexivity.
Qed.
Lemma nonempty_list l k (items : jdict) : dict_lookup items k = Some (JList l) -> NoDup (map fst items) ->
  dict_lookup (filter (fun kv => match snd kv with JNone | JList [] => false | _ => true end) items) k = match l with [] => None | _ => Some (JList l) end.
Proof.
  intros H N. rewrite (lookup_filter _ _ (fun v => match v with JNone | JList [] => false | _ => true end)) by (try exact N; reflexivity). rewrite H. now destruct l.
Qed.
(** Any simulator whose methods are read back. *)
Lemma simulator_reads parse_named version s with_version : Forall good_system (spin_systems s) ->
  Forall (fun m => exists d, json_method m = Ok d /\ parse_any_method parse_named d = Ok m) (methods s) -> good_config (sim_config s) -> exists d,
  json_simulator version s true with_version = Ok d /\ parse_simulator parse_named d = Ok s.
Proof.
  destruct s as [nm lb ds ys ms cf]. intros Gy Gm Gc. cbn [spin_systems methods sim_config] in *.
  destruct (mapM_exists method jdict json_method (fun m d => parse_any_method parse_named d = Ok m) ms) as (js & M & F2).
  { intros m Hm. rewrite Forall_forall in Gm. exact (Gm m Hm). }
  exists (filter (fun kv => match snd kv with JNone | JList [] => false | _ => true end)
        [("name", str_or_none nm); ("description", str_or_none ds); ("label", str_or_none lb);
         ("spin_systems", JList (map (fun y => JDict (json_system y)) ys));
         ("methods", JList (map JDict js)); ("config", JDict (json_config cf)); ("version", if with_version then JStr version else JNone)]).
  assert (MJ : mapM (fun m => let* d := json_method m in Ok (JDict d)) ms = Ok (map JDict js)).
  { clear - M. revert js M. induction ms as [|m ms IH]; intros js M; cbn [mapM] in *; [injection M as <-; reflexivity|].
    apply bind_ok in M. destruct M as (d & E & M). apply bind_ok in M. destruct M as (r & R & M). injection M as <-. rewrite E. cbn [bind]. now rewrite (IH r R). }
  split; [unfold json_simulator; cbn [methods x_name x_label x_description spin_systems sim_config]; rewrite MJ; reflexivity|].
  set (items := [("name", str_or_none nm); _; _; _; _; _; _]). set (J := filter _ items).
  assert (N : NoDup (map fst items)) by (unfold items; nd).
  assert (L : forall k, dict_lookup J k = match dict_lookup items k with Some v => if (match v with JNone | JList [] => false | _ => true end) then Some v else None | None => None end).
  { intros k. now apply (lookup_filter _ _ (fun v => match v with JNone | JList [] => false | _ => true end)). }
  unfold parse_simulator.
  assert (A : exists o, list_parse parse_system J "spin_systems" = Ok o /\ match o with Some l => l | None => [] end = ys).
  { pose proof (nonempty_list (map (fun y => JDict (json_system y)) ys) "spin_systems" items eq_refl N) as Z. fold J in Z. destruct ys as [|y ys].
    - exists None. split; [now apply list_parse_none|reflexivity].
    - exists (Some (y :: ys)). split; [|reflexivity]. apply (list_parse_round _ parse_system json_system); [|exact Z]. eapply Forall_impl; [|exact Gy]. intros z. apply system_round. }
  destruct A as (o & A1 & A2). rewrite A1. cbn [bind].
  assert (B : exists o, list_parse (parse_any_method parse_named) J "methods" = Ok o /\ match o with Some l => l | None => [] end = ms).
  { pose proof (nonempty_list (map JDict js) "methods" items eq_refl N) as Z. fold J in Z. destruct js as [|j js].
    - inversion F2; subst. exists None. split; [now apply list_parse_none|reflexivity].
    - exists (Some ms). split; [|reflexivity]. unfold list_parse. rewrite Z. cbn [map]. change (JDict j :: map JDict js) with (map JDict (j :: js)). rewrite mapM_map.
      exact (f_equal (fun r => bind r (fun r => Ok (Some r))) (mapM_forall2 _ _ (parse_any_method parse_named) ms (j :: js) F2)). }
  destruct B as (o' & B1 & B2). rewrite B1. cbn [bind].
  rewrite (opt_str_any J "name" nm) by (rewrite L; destruct nm; reflexivity).
  rewrite (opt_str_any J "label" lb) by (rewrite L; destruct lb; reflexivity).
  rewrite (opt_str_any J "description" ds) by (rewrite L; destruct ds; reflexivity). cbn [bind].
  replace (dict_lookup J "config") with (Some (JDict (json_config cf))) by (rewrite L; reflexivity). rewrite config_round by exact Gc. cbn [bind]. now rewrite A2, B2.
Qed.
Lemma plain_reads parse_named m : (good_method m /\ exists n, m_name m = Some n /\ ~ In n ["Method1D"; "Method2D"]) -> exists d, json_method m = Ok d /\ parse_any_method parse_named d = Ok m.
Proof.
  intros (GM & n & En & Nn). destruct (method_round m GM) as (d & E & P). exists d. split; [exact E|].
  unfold parse_any_method.
  assert (LN : dict_lookup d "name" = Some (JStr n)).
  { unfold json_method in E. rewrite En in E. destruct (dims m) as [|d0 dr]; [discriminate|]. destruct (events d0) as [|e0 er]; [discriminate|].
    apply bind_ok in E. destruct E as (a & _ & E). injection E as <-. reflexivity. }
  rewrite LN. destruct (existsb (String.eqb n) method_names) eqn:X; [|exact P]. exfalso. apply existsb_exists in X. destruct X as (y & Y1 & Y2). apply String.eqb_eq in Y2. subst y.
  destruct GM as (GM & _). specialize (GM n En). unfold NAMED_METHODS, method_names in *. cbn in *. intuition (subst; auto 20).
Qed.
Lemma simulator_round parse_named version s with_version : good_simulator s -> exists d,
  json_simulator version s true with_version = Ok d /\ parse_simulator parse_named d = Ok s.
Proof.
  intros (Gy & Gm & Gc). apply simulator_reads; try assumption. eapply Forall_impl; [|exact Gm]. apply plain_reads.
Qed.
