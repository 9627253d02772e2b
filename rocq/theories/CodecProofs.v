From Coq Require Import String.
From Verif Require Import Base CodecModel.
Open Scope N_scope.

Lemma rb {A} (c : codec A) : codec_ok c -> forall a rest, good c a -> dec c (enc c a ++ rest) = Ok (a, rest).
Proof. intros [H _]. exact H. Qed.
Lemma lo {A} (c : codec A) : codec_ok c -> local_reader (dec c).
Proof. intros [_ [H _]]. exact H. Qed.
Lemma sf {A} (c : codec A) : codec_ok c -> safe_reader (dec c).
Proof. intros [_ [_ H]]. exact H. Qed.

(** ** locality and safety compose *)
Lemma lo_ret {A} (a : A) : local_reader (rret a).
Proof. intros s x r t [= <- <-]. reflexivity. Qed.
Lemma lo_fail {A} : local_reader (@rfail A).
Proof. intros s x r t [=]. Qed.
Lemma lo_bind {A B} (m : reader A) (f : A -> reader B) :
  local_reader m -> (forall a, local_reader (f a)) -> local_reader (rdbind m f).
Proof.
  intros Hm Hf s b r t. unfold rdbind. destruct (m s) as [[a s']| |] eqn:E; try discriminate.
  intro H. rewrite (Hm _ _ _ t E). apply Hf. exact H.
Qed.
Lemma lo_byte : local_reader get_byte.
Proof. intros [|b s] x r t; [discriminate|]. intros [= <- <-]. reflexivity. Qed.
Lemma lo_guard b : local_reader (guard b).
Proof. destruct b; [apply lo_ret|apply lo_fail]. Qed.
Lemma sf_ret {A} (a : A) : safe_reader (rret a).
Proof. intros s. discriminate. Qed.
Lemma sf_fail {A} : safe_reader (@rfail A).
Proof. intros s. discriminate. Qed.
Lemma sf_bind {A B} (m : reader A) (f : A -> reader B) :
  safe_reader m -> (forall a, safe_reader (f a)) -> safe_reader (rdbind m f).
Proof.
  intros Hm Hf s. unfold rdbind. specialize (Hm s). destruct (m s) as [[a s']| |]; [apply Hf|discriminate|congruence].
Qed.
Lemma sf_byte : safe_reader get_byte.
Proof. intros [|b s]; discriminate. Qed.
Lemma sf_guard b : safe_reader (guard b).
Proof. destruct b; [apply sf_ret|apply sf_fail]. Qed.

Lemma lo_le k : local_reader (dec_le k).
Proof. induction k as [|k IH]; [apply lo_ret|]. cbn [dec_le]. apply lo_bind; [apply lo_byte|]. intro. apply lo_bind; [exact IH|]. intro. apply lo_ret. Qed.
Lemma sf_le k : safe_reader (dec_le k).
Proof. induction k as [|k IH]; [apply sf_ret|]. cbn [dec_le]. apply sf_bind; [apply sf_byte|]. intro. apply sf_bind; [exact IH|]. intro. apply sf_ret. Qed.
Lemma lo_n {A} (d : reader A) n : local_reader d -> local_reader (dec_n d n).
Proof. intro H. induction n as [|n IH]; [apply lo_ret|]. cbn [dec_n]. apply lo_bind; [exact H|]. intro. apply lo_bind; [exact IH|]. intro. apply lo_ret. Qed.
Lemma sf_n {A} (d : reader A) n : safe_reader d -> safe_reader (dec_n d n).
Proof. intro H. induction n as [|n IH]; [apply sf_ret|]. cbn [dec_n]. apply sf_bind; [exact H|]. intro. apply sf_bind; [exact IH|]. intro. apply sf_ret. Qed.

(** ** reading back *)
Lemma bind_reads {A B} (m : reader A) (f : A -> reader B) s a r : m s = Ok (a, r) -> rdbind m f s = f a r.
Proof. intro H. unfold rdbind. rewrite H. reflexivity. Qed.

Lemma le_back k : forall n rest, n < 256 ^ N.of_nat k -> dec_le k (enc_le k n ++ rest) = Ok (n, rest).
Proof.
  induction k as [|k IH]; intros n rest H.
  - cbn in H. assert (n = 0) as -> by lia. reflexivity.
  - cbn [enc_le dec_le app]. erewrite bind_reads by reflexivity.
    rewrite Nat2N.inj_succ, N.pow_succ_r in H by lia.
    erewrite bind_reads by (apply IH; apply N.div_lt_upper_bound; lia).
    unfold rret. do 2 f_equal. rewrite N.add_comm. symmetry. apply N.div_mod. lia.
Qed.
Lemma uint_ok k : codec_ok (uint k).
Proof. split; [intros n r H; apply le_back; exact H|]. split; [apply lo_le|apply sf_le]. Qed.
Lemma u8_ok : codec_ok u8. Proof. apply uint_ok. Qed.
Lemma u32_ok : codec_ok u32. Proof. apply uint_ok. Qed.
Lemma u64_ok : codec_ok u64. Proof. apply uint_ok. Qed.
Lemma f64_ok : codec_ok f64. Proof. apply uint_ok. Qed.
Lemma bool_ok : codec_ok bool_c.
Proof.
  split; [intros [|] r _; reflexivity|]. split.
  - apply lo_bind; [apply lo_byte|]. intro. apply lo_ret.
  - apply sf_bind; [apply sf_byte|]. intro. apply sf_ret.
Qed.

Lemma n_back {A} (c : codec A) : codec_ok c -> forall l rest, Forall (good c) l ->
  dec_n (dec c) (length l) (enc_all (enc c) l ++ rest) = Ok (l, rest).
Proof.
  intros [H _] l. induction l as [|a l IH]; intros rest HF; [reflexivity|]. inversion HF as [|? ? Ha Hl]; subst.
  cbn [length dec_n]. unfold enc_all. cbn [map List.concat]. rewrite <- app_assoc.
  erewrite bind_reads by (apply H; exact Ha). fold (enc_all (enc c) l). erewrite bind_reads by (apply IH; exact Hl).
  reflexivity.
Qed.
Lemma counted_ok {A} (c : codec A) : codec_ok c -> codec_ok (counted c).
Proof.
  intro Hc. pose proof Hc as [_ [Hl Hs]]. split; [|split].
  - intros l rest [Hn HF]. cbn [enc dec counted]. rewrite <- app_assoc.
    erewrite bind_reads by (apply (rb _ u32_ok); exact Hn). rewrite Nat2N.id. apply n_back; assumption.
  - apply lo_bind; [apply lo, u32_ok|]. intro. apply lo_n. exact Hl.
  - apply sf_bind; [apply sf, u32_ok|]. intro. apply sf_n. exact Hs.
Qed.
Lemma char_ok : codec_ok (mkCodec N (fun b => [b]) get_byte (fun _ => True)).
Proof. split; [intros b r _; reflexivity|]. split; [apply lo_byte|apply sf_byte]. Qed.
Lemma string_ok : codec_ok string_c.
Proof. apply counted_ok, char_ok. Qed.
Definition short (s : string) : Prop := N.of_nat (String.length s) < 2 ^ 32.
Lemma str_len s : length (str s) = String.length s.
Proof. unfold str. rewrite map_length. induction s; cbn; congruence. Qed.
Lemma str_good s : short s -> good string_c (str s).
Proof. intro H. split; [rewrite str_len; exact H|]. apply Forall_forall. intros. exact I. Qed.
Lemma list_N_eqb_refl l : list_N_eqb l l = true.
Proof. unfold list_N_eqb. destruct (list_eq_dec N.eq_dec l l); congruence. Qed.
Lemma expect_back s rest : short s -> expect_str (str s) (enc string_c (str s) ++ rest) = Ok (tt, rest).
Proof.
  intro H. unfold expect_str. erewrite bind_reads by (apply (rb _ string_ok), str_good; exact H).
  rewrite list_N_eqb_refl. reflexivity.
Qed.
Lemma lo_expect s : local_reader (expect_str s).
Proof. apply lo_bind; [apply lo, string_ok|]. intro. apply lo_guard. Qed.
Lemma sf_expect s : safe_reader (expect_str s).
Proof. apply sf_bind; [apply sf, string_ok|]. intro. apply sf_guard. Qed.

Lemma vec_ok {A} tn (c : codec A) : short tn -> codec_ok c -> codec_ok (vec tn c).
Proof.
  intros Hs Hc. pose proof (counted_ok c Hc) as [C1 [C2 C3]]. split; [|split].
  - intros l rest Hg. cbn [enc dec vec]. rewrite <- !app_assoc.
    erewrite bind_reads by (apply expect_back; reflexivity). erewrite bind_reads by (apply expect_back; exact Hs).
    apply C1. exact Hg.
  - apply lo_bind; [apply lo_expect|]. intro. apply lo_bind; [apply lo_expect|]. intro. exact C2.
  - apply sf_bind; [apply sf_expect|]. intro. apply sf_bind; [apply sf_expect|]. intro. exact C3.
Qed.
Lemma pair_ok {A B} (a : codec A) (b : codec B) : codec_ok a -> codec_ok b -> codec_ok (pair_c a b).
Proof.
  intros [A1 [A2 A3]] [B1 [B2 B3]]. split; [|split].
  - intros [x y] rest [Hx Hy]. cbn [enc dec pair_c fst snd] in *. rewrite <- app_assoc.
    erewrite bind_reads by (apply A1; exact Hx). erewrite bind_reads by (apply B1; exact Hy). reflexivity.
  - apply lo_bind; [exact A2|]. intro. apply lo_bind; [exact B2|]. intro. apply lo_ret.
  - apply sf_bind; [exact A3|]. intro. apply sf_bind; [exact B3|]. intro. apply sf_ret.
Qed.
Lemma map_ok {A B} ka kb (a : codec A) (b : codec B) : short ka -> short kb -> codec_ok a -> codec_ok b -> codec_ok (map_c ka kb a b).
Proof.
  intros Hka Hkb Ha Hb. pose proof (counted_ok _ (pair_ok a b Ha Hb)) as [C1 [C2 C3]]. split; [|split].
  - intros l rest Hg. cbn [enc dec map_c]. rewrite <- !app_assoc.
    erewrite bind_reads by (apply expect_back; reflexivity). erewrite bind_reads by (apply expect_back; exact Hka).
    erewrite bind_reads by (apply expect_back; exact Hkb). apply C1. exact Hg.
  - apply lo_bind; [apply lo_expect|]. intro. apply lo_bind; [apply lo_expect|]. intro. apply lo_bind; [apply lo_expect|]. intro. exact C2.
  - apply sf_bind; [apply sf_expect|]. intro. apply sf_bind; [apply sf_expect|]. intro. apply sf_bind; [apply sf_expect|]. intro. exact C3.
Qed.
Lemma opt_ok {A} tn (c : codec A) : short tn -> codec_ok c -> codec_ok (opt_c tn c).
Proof.
  intros Hs [C1 [C2 C3]]. split; [|split].
  - intros [a|] rest Hg; cbn [enc dec opt_c]; rewrite <- !app_assoc;
      erewrite bind_reads by (apply expect_back; reflexivity); (erewrite bind_reads by (apply expect_back; exact Hs));
      (erewrite bind_reads by (apply (rb _ bool_ok); exact I)); [|reflexivity].
    cbv beta iota. erewrite bind_reads by (apply C1; exact Hg). reflexivity.
  - apply lo_bind; [apply lo_expect|]. intro. apply lo_bind; [apply lo_expect|]. intro. apply lo_bind; [apply lo, bool_ok|].
    intros [|]; [|apply lo_ret]. apply lo_bind; [exact C2|]. intro. apply lo_ret.
  - apply sf_bind; [apply sf_expect|]. intro. apply sf_bind; [apply sf_expect|]. intro. apply sf_bind; [apply sf, bool_ok|].
    intros [|]; [|apply sf_ret]. apply sf_bind; [exact C3|]. intro. apply sf_ret.
Qed.

Lemma lo_object {A} cls (body : N -> reader A) : (forall v, local_reader (body v)) -> local_reader (read_object cls body).
Proof.
  intro H. apply lo_bind; [apply lo_expect|]. intro. apply lo_bind; [apply lo, u8_ok|]. intro. apply lo_bind; [apply H|]. intro.
  apply lo_bind; [apply lo_byte|]. intro. apply lo_bind; [apply lo_guard|]. intro. apply lo_ret.
Qed.
Lemma sf_object {A} cls (body : N -> reader A) : (forall v, safe_reader (body v)) -> safe_reader (read_object cls body).
Proof.
  intro H. apply sf_bind; [apply sf_expect|]. intro. apply sf_bind; [apply sf, u8_ok|]. intro. apply sf_bind; [apply H|]. intro.
  apply sf_bind; [apply sf_byte|]. intro. apply sf_bind; [apply sf_guard|]. intro. apply sf_ret.
Qed.
Lemma object_back {A} cls v (body : N -> reader A) fields a rest : short cls -> v < 256 ->
  (forall r, body v (fields ++ r) = Ok (a, r)) -> read_object cls body (write_object cls v fields ++ rest) = Ok (a, rest).
Proof.
  intros Hs Hv Hb. unfold read_object, write_object. rewrite <- !app_assoc.
  erewrite bind_reads by (apply expect_back; exact Hs).
  erewrite bind_reads by (apply (rb _ u8_ok); exact Hv).
  erewrite bind_reads by apply Hb. reflexivity.
Qed.

(** A local reader that reads back what was written does not accept a strict prefix. *)
Lemma truncated {A} (rd : reader A) s p q a : local_reader rd -> safe_reader rd -> rd s = Ok (a, []) ->
  s = p ++ q -> q <> [] -> rd p = Throw.
Proof.
  intros Hl Hs Hr -> Hq. specialize (Hs p). destruct (rd p) as [[x r]| |] eqn:E; [|reflexivity|congruence].
  rewrite (Hl _ _ _ q E) in Hr. injection Hr as _ Hr. apply app_eq_nil in Hr as [_ ->]. congruence.
Qed.
