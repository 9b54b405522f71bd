(** Properties C130-C133: execution time, the measurement header, printing and
    the shell commands. *)
From Coq Require Import List Arith ZArith Bool String Lia Reals Lra.
From Verif Require Import Base BaseFacts NumR Libm LibmR Out SpecVec SpecMtx MVec MMtx MQuat MAhrs MColor MMisc
  PMtx RTac PropAhrs PropColor PropColor2.
Import ListNotations.
Set Implicit Arguments.

(** * C130: the execution time macros.  The counter reads s at the start and has
    advanced by d cycles, modulo 2^32, at the end. *)
Open Scope Z_scope.
Theorem C130_elapsed_partial : forall s d,
  0 <= s -> 0 <= d -> s + d < 2 ^ 32 -> instr_cycles s ((s + d) mod 2 ^ 32) = d.
Proof.
  intros s d Hs Hd H. unfold instr_cycles, u32. rewrite (Z.mod_small (s + d)) by lia.
  destruct (Z.ltb_spec (s + d) s); [lia|]. replace (s + d - s) with d by lia. apply Z.mod_small. lia.
Qed.
Print Assumptions C130_elapsed_partial.

(** Whenever the counter has wrapped, one cycle is lost. *)
Theorem C130_wrap_refuted : forall s d,
  0 <= s < 2 ^ 32 -> 0 <= d < 2 ^ 32 -> 2 ^ 32 <= s + d -> instr_cycles s ((s + d) mod 2 ^ 32) = d - 1.
Proof.
  intros s d Hs Hd H. unfold instr_cycles, u32.
  assert (E : (s + d) mod 2 ^ 32 = s + d - 2 ^ 32).
  { symmetry. apply Z.mod_unique with 1; lia. }
  rewrite E. destruct (Z.ltb_spec (s + d - 2 ^ 32) s); [|lia].
  rewrite (Z.mod_small (4294967295 - s)) by lia.
  replace (4294967295 - s + (s + d - 2 ^ 32)) with (d - 1) by lia. apply Z.mod_small. lia.
Qed.
Print Assumptions C130_wrap_refuted.

Example C130_case : instr_cycles 5 1005 = 1000 /\ instr_cycles 4294967290 4 = 9.
Proof. split; reflexivity. Qed.

(** * C131: the measurement header.  The members and the 32-bit words of the
    header determine each other: no two members share a bit, and none is cut. *)
Definition bits (w x : Z) : Prop := 0 <= x < 2 ^ w.
Definition mes_ok (h : mes) : Prop :=
  bits 8 (base_type h) /\ bits 8 (ext_type h)
  /\ bits 3 (data_format h) /\ bits 4 (encoding h) /\ bits 3 (compression h) /\ bits 3 (timestamp h) /\ bits 3 (flags_rsvd h)
  /\ bits 16 (si_unit h) /\ bits 8 (ctype h) /\ -128 <= scale_factor h < 128
  /\ bits 16 (len h) /\ bits 2 (fragment h) /\ bits 2 (src_rsvd h) /\ bits 4 (samples h) /\ bits 8 (sourceid h).

Lemma field_at lo x hi p w : 0 <= p -> 0 <= w -> 0 <= lo < 2 ^ p -> bits w x ->
  field (lo + x * 2 ^ p + hi * 2 ^ (p + w)) p w = x.
Proof.
  intros Hp Hw Hl Hx. unfold field, bits in *. rewrite Z.pow_add_r by lia.
  assert (0 < 2 ^ p) by (apply Z.pow_pos_nonneg; lia). assert (0 < 2 ^ w) by (apply Z.pow_pos_nonneg; lia).
  replace (lo + x * 2 ^ p + hi * (2 ^ p * 2 ^ w)) with (lo + (x + hi * 2 ^ w) * 2 ^ p) by ring.
  rewrite Z.div_add by lia. rewrite (Z.div_small lo) by lia. rewrite Z.add_0_l, Z.mod_add by lia. apply Z.mod_small. lia.
Qed.

Lemma field_bits word p w : 0 <= w -> bits w (field word p w).
Proof. intros Hw. unfold field, bits. apply Z.mod_pos_bound. apply Z.pow_pos_nonneg; lia. Qed.

(** a word is its low bits, and the rest *)
Lemma field_split word p w : 0 <= p -> 0 <= w ->
  word mod 2 ^ (p + w) = word mod 2 ^ p + field word p w * 2 ^ p.
Proof.
  intros Hp Hw. unfold field. rewrite Z.pow_add_r by lia.
  assert (0 < 2 ^ p) by (apply Z.pow_pos_nonneg; lia). assert (0 < 2 ^ w) by (apply Z.pow_pos_nonneg; lia).
  rewrite Z.rem_mul_r by lia. lia.
Qed.

(** the powers of two as numbers, for lia *)
Ltac pows := unfold bits in *;
  repeat match goal with
  | |- context [2 ^ ?k] => let v := eval compute in (2 ^ k)%Z in change (2 ^ k)%Z with v
  | H : context [2 ^ ?k] |- _ => let v := eval compute in (2 ^ k)%Z in change (2 ^ k)%Z with v in H
  end.

Lemma int8_mod b : bits 8 b -> int8 b mod 2 ^ 8 = b.
Proof.
  unfold bits, int8. intros H. destruct (Z.ltb_spec b 128).
  - apply Z.mod_small. lia.
  - symmetry. apply Z.mod_unique with (-1); lia.
Qed.
Lemma mod_int8 x : -128 <= x < 128 -> int8 (x mod 2 ^ 8) = x.
Proof.
  intros H. unfold int8. destruct (Z.lt_ge_cases x 0) as [L|L].
  - assert (E : x mod 2 ^ 8 = x + 256) by (symmetry; apply Z.mod_unique with (-1); lia).
    rewrite E. destruct (Z.ltb_spec (x + 256) 128); lia.
  - rewrite Z.mod_small by lia. destruct (Z.ltb_spec x 128); lia.
Qed.

Lemma mes_ext a b c d e f g h i j k l m n o a' b' c' d' e' f' g' h' i' j' k' l' m' n' o' :
  a = a' -> b = b' -> c = c' -> d = d' -> e = e' -> f = f' -> g = g' -> h = h' -> i = i' -> j = j' -> k = k' -> l = l' -> m = m' -> n = n' -> o = o' ->
  Mes a b c d e f g h i j k l m n o = Mes a' b' c' d' e' f' g' h' i' j' k' l' m' n' o'.
Proof. intros; subst; reflexivity. Qed.

Theorem C131_members : forall h, mes_ok h ->
  mes_of_bits (filter_bits h) (unit_bits h) (srclen_bits h) = h
  /\ bits 32 (filter_bits h) /\ bits 32 (unit_bits h) /\ bits 32 (srclen_bits h).
Proof.
  intros [a b c d e f g u ty sc l fr rs sa so] H. unfold mes_ok in H.
  cbn [base_type ext_type data_format encoding compression timestamp flags_rsvd si_unit ctype scale_factor len fragment src_rsvd samples sourceid] in H.
  destruct H as (Ha & Hb & Hc & Hd & He & Hf & Hg & Hu & Hty & Hsc & Hl & Hfr & Hrs & Hsa & Hso).
  assert (Hm : bits 8 (sc mod 2 ^ 8)) by (unfold bits; apply Z.mod_pos_bound; reflexivity).
  unfold bits in Ha, Hb, Hc, Hd, He, Hf, Hg, Hu, Hty, Hl, Hfr, Hrs, Hsa, Hso. unfold bits in Hm at 1.
  unfold mes_of_bits, filter_bits, unit_bits, srclen_bits, flags_bits.
  cbn [base_type ext_type data_format encoding compression timestamp flags_rsvd si_unit ctype scale_factor len fragment src_rsvd samples sourceid].
  assert (Hi : int8 (sc mod 2 ^ 8) = sc) by (now apply mod_int8).
  revert Hm Hi. generalize (sc mod 2 ^ 8). intros m Hm Hi.
  split.
  - assert (F : forall word lo x hi p w, 0 <= p -> 0 <= w -> 0 <= lo < 2 ^ p -> 0 <= x < 2 ^ w ->
       word = lo + x * 2 ^ p + hi * 2 ^ (p + w) -> field word p w = x) by (intros; subst; now apply field_at).
    apply mes_ext.
    + apply F with 0 (b + (c + d * 2 ^ 3 + e * 2 ^ 7 + f * 2 ^ 10 + g * 2 ^ 13) * 2 ^ 8); pows; lia.
    + apply F with a (c + d * 2 ^ 3 + e * 2 ^ 7 + f * 2 ^ 10 + g * 2 ^ 13); pows; lia.
    + apply F with (a + b * 2 ^ 8) (d + e * 2 ^ 4 + f * 2 ^ 7 + g * 2 ^ 10); pows; lia.
    + apply F with (a + b * 2 ^ 8 + c * 2 ^ 16) (e + f * 2 ^ 3 + g * 2 ^ 6); pows; lia.
    + apply F with (a + b * 2 ^ 8 + c * 2 ^ 16 + d * 2 ^ 19) (f + g * 2 ^ 3); pows; lia.
    + apply F with (a + b * 2 ^ 8 + c * 2 ^ 16 + d * 2 ^ 19 + e * 2 ^ 23) g; pows; lia.
    + apply F with (a + b * 2 ^ 8 + c * 2 ^ 16 + d * 2 ^ 19 + e * 2 ^ 23 + f * 2 ^ 26) 0; pows; lia.
    + apply F with 0 (ty + m * 2 ^ 8); pows; lia.
    + apply F with u m; pows; lia.
    + replace (field (u + ty * 2 ^ 16 + m * 2 ^ 24) 24 8) with m; [exact Hi|].
      clear Hi. symmetry. apply F with (u + ty * 2 ^ 16) 0; pows; lia.
    + apply F with 0 (fr + rs * 2 ^ 2 + sa * 2 ^ 4 + so * 2 ^ 8); pows; lia.
    + apply F with l (rs + sa * 2 ^ 2 + so * 2 ^ 6); pows; lia.
    + apply F with (l + fr * 2 ^ 16) (sa + so * 2 ^ 4); pows; lia.
    + apply F with (l + fr * 2 ^ 16 + rs * 2 ^ 18) so; pows; lia.
    + apply F with (l + fr * 2 ^ 16 + rs * 2 ^ 18 + sa * 2 ^ 20) 0; pows; lia.
  - unfold bits. split; [|split]; pows; lia.
Qed.
Print Assumptions C131_members.

Theorem C131_words : forall f u s, bits 32 f -> bits 32 u -> bits 32 s ->
  let h := mes_of_bits f u s in
  mes_ok h /\ filter_bits h = f /\ unit_bits h = u /\ srclen_bits h = s.
Proof.
  intros f u s Hf Hu Hs h. split.
  - unfold mes_ok, h, mes_of_bits. cbn [base_type ext_type data_format encoding compression timestamp flags_rsvd si_unit ctype scale_factor len fragment src_rsvd samples sourceid].
    repeat split; try (apply field_bits; lia).
    + pose proof (@field_bits u 24 8 ltac:(lia)) as B. pows; unfold int8 in *. destruct (Z.ltb_spec (field u 24 8) 128); pows; lia.
    + pose proof (@field_bits u 24 8 ltac:(lia)) as B. pows; unfold int8 in *. destruct (Z.ltb_spec (field u 24 8) 128); lia.
  - unfold bits in Hf, Hu, Hs.
    assert (W : forall word, 0 <= word < 2 ^ 32 -> word mod 2 ^ 32 = word) by (intros; now apply Z.mod_small).
    pose proof (W f Hf) as Wf. pose proof (W u Hu) as Wu. pose proof (W s Hs) as Ws.
    assert (S : forall word p w q, 0 <= p -> 0 <= w -> q = p + w -> word mod 2 ^ q = word mod 2 ^ p + field word p w * 2 ^ p)
      by (intros; subst; now apply field_split).
    unfold h, mes_of_bits, filter_bits, unit_bits, srclen_bits, flags_bits.
    cbn [base_type ext_type data_format encoding compression timestamp flags_rsvd si_unit ctype scale_factor len fragment src_rsvd samples sourceid].
    rewrite int8_mod by (apply field_bits; lia).
    assert (Z0 : forall word, word mod 2 ^ 0 = 0) by (intros; apply Z.mod_1_r).
    rewrite (S f 29 3 32), (S f 26 3 29), (S f 23 3 26), (S f 19 4 23), (S f 16 3 19), (S f 8 8 16), (S f 0 8 8), Z0 in Wf by lia.
    rewrite (S u 24 8 32), (S u 16 8 24), (S u 0 16 16), Z0 in Wu by lia.
    rewrite (S s 24 8 32), (S s 20 4 24), (S s 18 2 20), (S s 16 2 18), (S s 0 16 16), Z0 in Ws by lia.
    pows; lia.
Qed.
Print Assumptions C131_words.

Example C131_case : mes_ok (Mes 16 1 1 0 0 2 0 300 16 (-3) 4 2 0 1 7)
  /\ unit_bits (Mes 16 1 1 0 0 2 0 300 16 (-3) 4 2 0 1 7) = 4245684524.
Proof. split; [|reflexivity]. unfold mes_ok, bits. cbn. lia. Qed.
Close Scope Z_scope.

Lemma firstn_S_nth A (l : list A) d i : i < List.length l -> firstn (S i) l = firstn i l ++ [nth i l d].
Proof.
  revert i; induction l as [|a l IH]; intros [|i] H; cbn in H; try lia; [reflexivity|].
  change (a :: firstn (S i) l = a :: (firstn i l ++ [nth i l d])). now rewrite IH by lia.
Qed.

(** * C132: printing, in every arithmetic: every element once, in order, row by
    row, and nothing else is read or written. *)
Theorem C132_vector : forall T (xs : list T) tl,
  vec_print (vec_of xs tl) = Ok (0%Z, map PNum xs ++ [PText (newline ++ newline)]).
Proof.
  intros T xs tl. unfold vec_print, vec_of. cbn [vsz vbuf].
  assert (E : for_ (List.length xs) 0 (fun g o => let! x := rd (cells xs ++ tl) g in Ok (o ++ [PNum x])) []
    = Ok (map PNum (firstn (List.length xs) xs))).
  { apply (@for_fun _ (fun k => map PNum (firstn k xs)) (List.length xs) 0). intros i Hi.
    destruct xs as [|d l] eqn:Ex; [cbn in Hi; lia|]. rewrite <- Ex in *.
    rewrite (@rd_cells_app T xs tl i d) by lia. cbn [bind]. f_equal.
    rewrite (@firstn_S_nth T xs d i) by lia. now rewrite map_app. }
  rewrite E. cbn [bind]. now rewrite firstn_all.
Qed.
Print Assumptions C132_vector.

Theorem C132_matrix : forall T bc r c (f : nat -> nat -> T) tl,
  mtx_print bc (mat_of r c f tl)
  = Ok (0%Z, flat_map (fun i => map (fun j => PNum (f i j)) (seq 0 c) ++ [PText newline]) (seq 0 r) ++ [PText newline]).
Proof.
  intros T bc r c f tl. unfold mtx_print.
  change (mrows (mat_of r c f tl)) with r. change (mcols (mat_of r c f tl)) with c.
  assert (Row : forall i o, i < r ->
    for_exit c 0 (fun j o => let! (rc, x) := mtx_get bc (mat_of r c f tl) i j in
        match x with
        | None => Ok (inr ((- EINVAL)%Z, o ++ [PText "Error reading"%string]))
        | Some x => Ok (inl (o ++ [PNum x]))
        end) o = Ok (inl (o ++ map (fun j => PNum (f i j)) (seq 0 c)))).
  { intros i o Hi.
    pose proof (@for_exit_fun (list (item T)) (Z * list (item T)) (fun k => o ++ map (fun j => PNum (f i j)) (seq 0 k)) c 0) as E.
    specialize (E (fun j o => let! (rc, x) := mtx_get bc (mat_of r c f tl) i j in
        match x with
        | None => Ok (inr ((- EINVAL)%Z, o ++ [PText "Error reading"%string]))
        | Some x => Ok (inl (o ++ [PNum x]))
        end)).
    cbv beta in E. change (map (fun j => PNum (f i j)) (seq 0 0)) with (@nil (item T)) in E. rewrite app_nil_r in E. apply E. intros j Hj.
    rewrite mtx_get_mat by lia. cbn [bind]. do 2 f_equal. rewrite seq_S, map_app, app_assoc. reflexivity. }
  pose proof (@for_exit_fun (list (item T)) (Z * list (item T))
    (fun k => flat_map (fun i => map (fun j => PNum (f i j)) (seq 0 c) ++ [PText newline]) (seq 0 k)) r 0) as E.
  cbv beta in E. change (flat_map (fun i => map (fun j => PNum (f i j)) (seq 0 c) ++ [PText newline]) (seq 0 0)) with (@nil (item T)) in E.
  rewrite E; [reflexivity|].
  intros i Hi. rewrite Row by lia. cbn [bind]. do 2 f_equal.
  rewrite seq_S, flat_map_app. cbn [flat_map Nat.add]. now rewrite app_nil_r, app_assoc.
Qed.
Print Assumptions C132_matrix.

Theorem C132_rotations : forall T (q : quat T) (e : euler T),
  let nums := flat_map (fun x => match x with PNum y => [y] | PText _ => [] end) in
  fst (quat_print q) = 0%Z /\ nums (snd (quat_print q)) = [qr q; qi q; qj q; qk q]
  /\ fst (eul_print e) = 0%Z /\ nums (snd (eul_print e)) = [ex e; ey e; ez e].
Proof. intros. now repeat split. Qed.
Print Assumptions C132_rotations.

(** The characters, however a number is written ([show]) *)
Theorem C132_text : forall T (show : T -> string) (q : quat T) (e : euler T),
  let text l := String.concat "" (map (fun x => match x with PNum y => show y | PText s => s end) l) in
  text (snd (quat_print q)) = (show (qr q) ++ " + " ++ show (qi q) ++ " i + " ++ show (qj q) ++ " j + " ++ show (qk q) ++ " k" ++ newline)%string
  /\ text (snd (eul_print e)) = ("(" ++ show (ex e) ++ ", " ++ show (ey e) ++ ", " ++ show (ez e) ++ ")" ++ newline ++ newline)%string.
Proof. intros. split; reflexivity. Qed.
Print Assumptions C132_text.

Example C132_case : mtx_print true (mat_of 2 2 (fun i j => (10 * i + j)%nat) [])
  = Ok (0%Z, [PNum 0; PNum 1; PText newline; PNum 10; PNum 11; PText newline; PText newline]).
Proof. apply (C132_matrix true 2 2 (fun i j => (10 * i + j)%nat) []). Qed.

(** * C133: the shell commands.  [strtof] is any function: no argument can make
    a command misbehave.  The shell hands lat2g one to five words, and the colour
    commands exactly two. *)
Open Scope R_scope.
Section Shell.
Variable strtof : string -> R.

(** "orient lat2g LAT ALT" with a northern latitude and an altitude from sea
    level up prints the gravity of C98. *)
Theorem C133_lat2g : forall cmd a b,
  a <> "help"%string -> 0 < strtof a <= 90 -> 0 <= strtof b <= 10000 ->
  exists g, grav_lat_alt (strtof a) (strtof b) = Ok (0%Z, Set_ g)
    /\ cmd_lat2g strtof [cmd; a; b] = Ok (0%Z, [PNum g; PText " m/s^2"%string]).
Proof.
  intros cmd a b Ha Hl Hb.
  destruct (C98_gravity_guard (strtof a) (strtof b)) as [_ G].
  destruct G as [g G]; [lra|rewrite Rabs_right; lra|]. exists g. split; [exact G|].
  unfold cmd_lat2g. cbn [List.length Nat.eqb arg nth_error bind Nat.ltb Nat.leb].
  apply String.eqb_neq in Ha. rewrite Ha. rops.
  destruct (Rleb_spec (strtof a) 0); [lra|].
  replace (100000 / 10) with 10000 by field. replace (5000 / 10) with 500 by field.
  destruct (Rltb_spec 10000 (strtof b)); [lra|]. destruct (Rltb_spec (strtof b) (- (500))); [lra|].
  cbn [orb]. rewrite G. reflexivity.
Qed.
Print Assumptions C133_lat2g.

(** Whatever the words are, lat2g ends, with code 0 or -EINVAL, and reads no word
    that is not there; it answers a number only in the case above. *)
Theorem C133_lat2g_total : forall argv, argv <> [] ->
  exists rc o, cmd_lat2g strtof argv = Ok (rc, o) /\ (rc = 0 \/ rc = - EINVAL)%Z
    /\ forall g, In (PNum g) o -> rc = 0%Z /\ exists cmd a b, argv = [cmd; a; b]
         /\ 0 < strtof a <= 90 /\ 0 <= strtof b <= 10000 /\ grav_lat_alt (strtof a) (strtof b) = Ok (0%Z, Set_ g).
Proof.
  intros argv Hn.
  assert (Fail : forall t : list (item R), (forall g, ~ In (PNum g) t) -> exists rc o, Ok (- EINVAL, t)%Z = Ok (rc, o) /\ (rc = 0 \/ rc = - EINVAL)%Z
    /\ forall g, In (PNum g) o -> rc = 0%Z /\ exists cmd a b, argv = [cmd; a; b]
         /\ 0 < strtof a <= 90 /\ 0 <= strtof b <= 10000 /\ grav_lat_alt (strtof a) (strtof b) = Ok (0%Z, Set_ g)).
  { intros t Ht. do 2 eexists. split; [reflexivity|]. split; [now right|]. intros g Hg. now apply Ht in Hg. }
  assert (Help : exists rc o, Ok (0%Z, [PText "help"%string]) = Ok (rc, o) /\ (rc = 0 \/ rc = - EINVAL)%Z
    /\ forall g : R, In (PNum g) o -> rc = 0%Z /\ exists cmd a b, argv = [cmd; a; b]
         /\ 0 < strtof a <= 90 /\ 0 <= strtof b <= 10000 /\ grav_lat_alt (strtof a) (strtof b) = Ok (0%Z, Set_ g)).
  { do 2 eexists. split; [reflexivity|]. split; [now left|]. intros g [Hg|[]]. discriminate. }
  destruct argv as [|cmd [|a rest]]; [congruence| |].
  - exact Help.
  - unfold cmd_lat2g. cbn [arg nth_error bind].
    change (List.length (cmd :: a :: rest) =? 1)%nat with false. cbn [bind].
    destruct (String.eqb a "help"); [exact Help|].
    destruct rest as [|b rest].
    + cbn [List.length Nat.eqb]. apply Fail. intros g [E|[E|[]]]; discriminate.
    + change (List.length (cmd :: a :: b :: rest) =? 2)%nat with false.
      destruct rest as [|d rest].
      2:{ change (3 <? List.length (cmd :: a :: b :: d :: rest))%nat with true.
          change (arg (cmd :: a :: b :: d :: rest) 3) with (Ok d). cbn [bind].
          apply Fail. intros g [E|[E|[]]]; discriminate. }
      change (arg [cmd; a; b] 2) with (Ok b). cbn [List.length Nat.ltb Nat.leb bind]. rops.
      destruct (Rleb_spec (strtof a) 0) as [La|La].
      { apply Fail. intros g [E|[E|[]]]; discriminate. }
      replace (100000 / 10) with 10000 by field. replace (5000 / 10) with 500 by field.
      destruct (Rltb_spec 10000 (strtof b)) as [Lb|Lb].
      { cbn [orb]. apply Fail. intros g [E|[E|[]]]; discriminate. }
      destruct (Rltb_spec (strtof b) (- (500))) as [Lc|Lc].
      { cbn [orb]. apply Fail. intros g [E|[E|[]]]; discriminate. }
      cbn [orb]. destruct (C98_gravity_guard (strtof a) (strtof b)) as [Bad Good].
      destruct (Rlt_dec (strtof b) 0) as [L|L].
      { rewrite Bad by (now left). cbn [bind]. apply Fail. intros g [E|[]]; discriminate. }
      destruct (Rlt_dec 90 (Rabs (strtof a))) as [M|M].
      { rewrite Bad by (now right). cbn [bind]. apply Fail. intros g [E|[]]; discriminate. }
      rewrite Rabs_right in M by lra.
      destruct Good as [g0 G]; [lra|rewrite Rabs_right; lra|]. rewrite G. cbn [bind].
      do 2 eexists. split; [reflexivity|]. split; [now left|].
      intros g [E|[E|[]]]; [|discriminate]. injection E as <-. split; [reflexivity|].
      exists cmd, a, b. repeat split; lra || exact G.
Qed.
Print Assumptions C133_lat2g_total.

(** The library knows the gravity on the equator and to the south of it, the
    command refuses them; the altitudes between -500 m and 0 pass the command's
    own check and are then refused by the library. *)
Theorem C133_south_refuted : forall cmd a b,
  a <> "help"%string -> -90 <= strtof a <= 0 -> 0 <= strtof b <= 10000 ->
  (exists g, grav_lat_alt (strtof a) (strtof b) = Ok (0%Z, Set_ g))
  /\ cmd_lat2g strtof [cmd; a; b] = Ok ((- EINVAL)%Z, [PText "Error: invalid argument "%string; PText a]).
Proof.
  intros cmd a b Ha Hl Hb. split.
  - apply C98_gravity_guard; [lra|]. apply Rabs_le. lra.
  - unfold cmd_lat2g. cbn [List.length Nat.eqb arg nth_error bind Nat.ltb Nat.leb].
    apply String.eqb_neq in Ha. rewrite Ha. rops. destruct (Rleb_spec (strtof a) 0); [reflexivity|lra].
Qed.
Print Assumptions C133_south_refuted.

Theorem C133_below_sea_level_refuted : forall cmd a b,
  a <> "help"%string -> 0 < strtof a <= 90 -> -500 <= strtof b < 0 ->
  cmd_lat2g strtof [cmd; a; b] = Ok ((- EINVAL)%Z, [PText "Error: unexpected return code"%string]).
Proof.
  intros cmd a b Ha Hl Hb. unfold cmd_lat2g. cbn [List.length Nat.eqb arg nth_error bind Nat.ltb Nat.leb].
  apply String.eqb_neq in Ha. rewrite Ha. rops.
  destruct (Rleb_spec (strtof a) 0); [lra|].
  replace (100000 / 10) with 10000 by field. replace (5000 / 10) with 500 by field.
  destruct (Rltb_spec 10000 (strtof b)); [lra|]. destruct (Rltb_spec (strtof b) (- (500))); [lra|].
  cbn [orb]. destruct (C98_gravity_guard (strtof a) (strtof b)) as [Bad _]. rewrite Bad by (left; lra). reflexivity.
Qed.
Print Assumptions C133_below_sea_level_refuted.

(** "color ct2rgb T": a positive temperature below 2^32 prints its integer part
    and the library's colour, every channel in range. *)
Lemma trunc_u32 t : 0 < t < 2 ^ 32 -> exists k, to_u32 t = Ok k /\ IZR k <= t < IZR k + 1.
Proof.
  intros H. unfold to_u32. cbn [ftrunc NumMR]. unfold RtruncZ. destruct (Rle_dec 0 t); [|lra].
  pose proof (base_Int_part t) as [B1 B2]. set (k := Int_part t) in *.
  assert (0 <= k)%Z. { assert (IZR (-1) < IZR k) by lra. apply lt_IZR in H0. lia. }
  assert (k < 2 ^ 32)%Z. { apply lt_IZR. apply Rle_lt_trans with t; [exact B1|]. destruct H as [_ H].
    eapply Rlt_le_trans; [exact H|]. right. change (2 ^ 32)%Z with 4294967296%Z. cbn. lra. }
  destruct (Z.leb_spec 0 k); [|lia]. destruct (Z.ltb_spec k (2 ^ 32)); [|lia].
  exists k. split; [reflexivity|]. lra.
Qed.

Theorem C133_ct2rgb_partial : forall bc cap cmd a,
  a <> "help"%string -> 0 < strtof a < 2 ^ 32 ->
  exists m k o, rgbccm_get 0 = Ok m
    /\ ct_rgb8 bc cap (strtof a) 0 m (Rgb8 0 0 0 0 (Some 0) (Some 0) (Some 0) (Some 0))%Z = Ok (0%Z, o)
    /\ cmd_ct2rgb strtof bc cap [cmd; a] = Ok (0%Z, Some (k, o))
    /\ IZR k <= strtof a < IZR k + 1
    /\ (0 <= r8 o <= 255)%Z /\ (0 <= g8 o <= 255)%Z /\ (0 <= b8 o <= 255)%Z.
Proof.
  intros bc cap cmd a Ha Ht. destruct (trunc_u32 Ht) as (k & Ek & Bk).
  destruct (@C110_rgb8 bc cap (strtof a) 0%Z 0%nat (Rgb8 0 0 0 0 (Some 0) (Some 0) (Some 0) (Some 0))%Z) as (m & o & Em & Eo & Hr & Hg & Hb & _);
    [lra|now left|lia|].
  exists m, k, o. split; [exact Em|]. split; [exact Eo|]. split; [|auto].
  unfold cmd_ct2rgb. rewrite Em. cbn [bind arg nth_error]. apply String.eqb_neq in Ha. rewrite Ha.
  rops. destruct (Rleb_spec (strtof a) 0); [lra|]. cbv zeta. rewrite Eo. cbn [bind]. now rewrite Ek.
Qed.
Print Assumptions C133_ct2rgb_partial.

Theorem C133_ct2rgb_rejects : forall bc cap cmd a,
  a <> "help"%string -> strtof a <= 0 -> cmd_ct2rgb strtof bc cap [cmd; a] = Ok ((- EINVAL)%Z, None)
    /\ cmd_ct2rgbf strtof bc cap [cmd; a] = Ok ((- EINVAL)%Z, None).
Proof.
  intros bc cap cmd a Ha Ht. unfold cmd_ct2rgb, cmd_ct2rgbf. apply String.eqb_neq in Ha.
  destruct (@C110_rgb8 bc cap 1 0%Z 0%nat (Rgb8 0 0 0 0 (Some 0) (Some 0) (Some 0) (Some 0))%Z) as (m & _ & Em & _);
    [lra|now left|lia|]. rewrite Em. cbn [bind arg nth_error]. rewrite Ha. rops.
  destruct (Rleb_spec (strtof a) 0); [auto|lra].
Qed.
Print Assumptions C133_ct2rgb_rejects.

(** A hotter one is converted to an unsigned int that cannot hold it. *)
Theorem C133_ct2rgb_hot_refuted : forall bc cap cmd a,
  a <> "help"%string -> 2 ^ 32 <= strtof a -> cmd_ct2rgb strtof bc cap [cmd; a] = NotReal.
Proof.
  intros bc cap cmd a Ha Ht. assert (P : 4294967296 <= strtof a) by (cbn in Ht; lra).
  destruct (@C110_rgb8 bc cap (strtof a) 0%Z 0%nat (Rgb8 0 0 0 0 (Some 0) (Some 0) (Some 0) (Some 0))%Z) as (m & o & Em & Eo & _);
    [lra|now left|lia|].
  unfold cmd_ct2rgb. rewrite Em. cbn [bind arg nth_error]. apply String.eqb_neq in Ha. rewrite Ha.
  rops. destruct (Rleb_spec (strtof a) 0); [lra|]. cbv zeta. rewrite Eo. cbn [bind].
  unfold to_u32. cbn [ftrunc NumMR]. unfold RtruncZ. destruct (Rle_dec 0 (strtof a)); [|lra].
  pose proof (base_Int_part (strtof a)) as [B1 B2].
  assert (H : (2 ^ 32 <= Int_part (strtof a))%Z).
  { assert (L : IZR 4294967295 < IZR (Int_part (strtof a))) by lra. apply lt_IZR in L. lia. }
  destruct (Z.ltb_spec (Int_part (strtof a)) (2 ^ 32)); [lia|]. now rewrite andb_false_r.
Qed.
Print Assumptions C133_ct2rgb_hot_refuted.

(** The floating point command prints the channels of zsl_clr_conv_ct_rgbf. *)
Theorem C133_ct2rgbf_partial : forall bc cap cmd a,
  a <> "help"%string -> 0 < strtof a < 2 ^ 32 ->
  exists m k o, rgbccm_get 0 = Ok m
    /\ ct_rgbf bc cap (strtof a) 0 m (Rgbf 0 0 0 0 (Some 0%Z) (Some 0%Z) (Some 0%Z) (Some 0%Z)) = Ok (0%Z, o)
    /\ cmd_ct2rgbf strtof bc cap [cmd; a] = Ok (0%Z, Some (k, o))
    /\ IZR k <= strtof a < IZR k + 1.
Proof.
  intros bc cap cmd a Ha Ht. destruct (trunc_u32 Ht) as (k & Ek & Bk).
  destruct (@C110_black_body (strtof a) 0%Z) as [E _]; [lra|now left|].
  set (x := Xyz _ _ _ _ _ _ _ _) in E.
  destruct (@C83_rgbf bc cap x (ccm_entry 0) []) as (o & Eo & _).
  exists (mat_of 3 3 (ccm_entry 0) []), k, o.
  assert (Em : rgbccm_get 0 = Ok (mat_of 3 3 (ccm_entry 0) [])) by (apply rgbccm_get_eq; lia).
  assert (Ef : ct_rgbf bc cap (strtof a) 0 (mat_of 3 3 (ccm_entry 0) []) (Rgbf 0 0 0 0 (Some 0%Z) (Some 0%Z) (Some 0%Z) (Some 0%Z)) = Ok (0%Z, o)).
  { unfold ct_rgbf. rewrite E. cbn [bind Z.eqb negb]. exact Eo. }
  split; [exact Em|]. split; [exact Ef|]. split; [|exact Bk].
  unfold cmd_ct2rgbf. rewrite Em. cbn [bind arg nth_error]. apply String.eqb_neq in Ha. rewrite Ha.
  rops. destruct (Rleb_spec (strtof a) 0); [lra|]. cbv zeta. rewrite Ef. cbn [bind]. now rewrite Ek.
Qed.
Print Assumptions C133_ct2rgbf_partial.
End Shell.

Example C133_case : exists strtof : string -> R, strtof "41.3851"%string = 413851 / 10000 /\ strtof "12"%string = 12
  /\ exists g, cmd_lat2g strtof ["lat2g"; "41.3851"; "12"]%string = Ok (0%Z, [PNum g; PText " m/s^2"%string]).
Proof.
  exists (fun s => if String.eqb s "12" then 12 else 413851 / 10000). split; [reflexivity|]. split; [reflexivity|].
  destruct (@C133_lat2g (fun s => if String.eqb s "12" then 12 else 413851 / 10000) "lat2g" "41.3851" "12") as (g & _ & E);
    [discriminate|cbn; lra|cbn; lra|]. now exists g.
Qed.

(** * C134: the random entry function.  In every arithmetic, the same matrix each
    time: every element is 0. *)
Close Scope R_scope.
Theorem C134_in_range_partial : forall bc r c (m : mtx R),
  room r c m -> exists f, mtx_init bc m (Some (entry_fn_random bc)) = Ok (0%Z, mat_of r c f (rest m))
    /\ forall i j, (-1 <= f i j <= 1)%R.
Proof.
  intros bc r c m H. exists (fun _ _ => 0%R). split; [|intros; lra]. now apply mtx_init_gen.
Qed.
Print Assumptions C134_in_range_partial.

Theorem C134_random_refuted : forall T (N : Num T) bc r c (m : mtx T),
  room r c m -> mtx_init bc m (Some (entry_fn_random bc)) = Ok (0%Z, mat_of r c (fun _ _ => f0) (rest m)).
Proof. intros T N bc r c m H. now apply mtx_init_gen. Qed.
Print Assumptions C134_random_refuted.
