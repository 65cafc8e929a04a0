(** SerializationProofs.v - plain text output. *)
From Coq Require Import ZArith NArith.
From Verif Require Import Base Double Elements UtilsSpec TextUtils Document Serialization SerializationSpec DehyphenationProofs.

Lemma write_chars_ok cs out : write_chars cs out = out ++ chars_text cs.
Proof.
  revert out; induction cs as [|c cs IH]; intros out; cbn [write_chars]; [unfold chars_text; cbn; rewrite app_nil_r; reflexivity|].
  rewrite IH. unfold chars_text. cbn [map concat]. unfold char_text at 2.
  destruct (c_hasMark c), (c_markOf c); cbn; rewrite <- ?app_assoc; reflexivity.
Qed.

(** A loop that writes a separator before every item but the first. *)
Definition sep_step (sep : str) (st : str * bool) (x : str) : str * bool :=
  (fst st ++ (if snd st then sep else []) ++ x, true).
Lemma concat_map_sep sep l x : concat (map (app sep) (x :: l)) = sep ++ intercalate sep (x :: l).
Proof.
  revert x; induction l as [|y l IH]; intros x; [cbn; rewrite app_nil_r; reflexivity|].
  change (concat (map (app sep) (x :: y :: l))) with ((sep ++ x) ++ concat (map (app sep) (y :: l))). rewrite IH.
  change (intercalate sep (x :: y :: l)) with (x ++ sep ++ intercalate sep (y :: l)). rewrite <- app_assoc. reflexivity.
Qed.
Definition isnil {A} (l : list A) : bool := match l with [] => true | _ => false end.
Lemma sep_fold sep l out fl :
  fold_left (sep_step sep) l (out, fl) =
  (out ++ (if fl then concat (map (app sep) l) else intercalate sep l), fl || negb (isnil l)).
Proof.
  revert out fl; induction l as [|x l IH]; intros out fl; cbn [fold_left].
  - destruct fl; cbn; rewrite app_nil_r; reflexivity.
  - unfold sep_step at 2. cbn [fst snd]. rewrite IH. f_equal.
    + destruct fl.
      * cbn [map concat]. rewrite <- !app_assoc. reflexivity.
      * cbn [app]. rewrite <- app_assoc. f_equal. destruct l as [|y l]; [cbn; rewrite ?app_nil_r; reflexivity|].
        rewrite concat_map_sep. reflexivity.
    + destruct fl; reflexivity.
Qed.

Lemma write_word_sep h ws st :
  fold_left (write_word h) ws st =
  fold_left (sep_step [" "%char]) (map shown (filter (fun w => is_none (w_second w)) (map h ws))) st.
Proof.
  revert st; induction ws as [|w ws IH]; intros st; [reflexivity|]. cbn [fold_left map filter]. rewrite IH.
  unfold write_word. destruct st as [out fl]. unfold is_none.
  destruct (w_second (h w)) as [m|] eqn:E; cbn [is_some negb]; [reflexivity|].
  cbn [map fold_left]. f_equal. unfold sep_step, shown. cbn [fst snd].
  destruct (w_first (h w)); rewrite ?write_chars_ok; destruct fl; cbn [app]; rewrite <- ?app_assoc; reflexivity.
Qed.
Lemma write_block_words_ok h b out : write_block_words h b out = out ++ intercalate [" "%char] (block_shown h b).
Proof.
  unfold write_block_words, block_shown. 
  assert (E : fold_left (fun st l => fold_left (write_word h) l st) (b_lines b) (out, false) =
              fold_left (write_word h) (flat_map (fun x => x) (b_lines b)) (out, false)) by (rewrite fold_left_flat_map; reflexivity).
  rewrite E, write_word_sep, sep_fold. cbn [fst]. rewrite flat_map_concat_map, map_id. reflexivity.
Qed.

Lemma has_role_sel roles r : has_role roles r = if in_dec Nat.eq_dec r roles then true else false.
Proof.
  unfold has_role. destruct (in_dec Nat.eq_dec r roles) as [I|N].
  - apply existsb_exists. exists r. split; [assumption|apply Nat.eqb_refl].
  - destruct (existsb (Nat.eqb r) roles) eqn:E; [|reflexivity]. apply existsb_exists in E. destruct E as (x & Hx & Ex).
    apply Nat.eqb_eq in Ex. subst. tauto.
Qed.

Lemma write_blocks_ok h roles bs st :
  fold_left (write_block h roles) bs st =
  fold_left (sep_step [nl; nl]) (map (fun b => intercalate [" "%char] (block_shown h b))
     (filter (fun b => if in_dec Nat.eq_dec (b_role b) roles then true else false) bs)) st.
Proof.
  revert st; induction bs as [|b bs IH]; intros st; [reflexivity|]. cbn [fold_left filter]. rewrite IH.
  unfold write_block. destruct st as [out fl]. rewrite has_role_sel.
  destruct (in_dec Nat.eq_dec (b_role b) roles); [|reflexivity]. cbn [map fold_left]. f_equal.
  rewrite write_block_words_ok. unfold sep_step. cbn [fst snd]. destruct fl; unfold endl; cbn [app]; rewrite <- ?app_assoc; reflexivity.
Qed.

Theorem plain_ok d h roles out :
  plain_serialize d h roles out =
  out ++ intercalate [nl; nl] (map (fun b => intercalate [" "%char] (block_shown h b)) (flat_map (selected roles) (d_pages d))) ++ [nl].
Proof.
  unfold plain_serialize.
  assert (E : forall ps st, fold_left (fun st p => fold_left (write_block h roles) (p_blocks p) st) ps st =
    fold_left (sep_step [nl; nl]) (map (fun b => intercalate [" "%char] (block_shown h b)) (flat_map (selected roles) ps)) st).
  { induction ps as [|p ps IH]; intros st; [reflexivity|]. cbn [fold_left flat_map]. rewrite IH, map_app, fold_left_app.
    rewrite write_blocks_ok. reflexivity. }
  rewrite E, sep_fold. cbn [fst]. unfold endl. rewrite <- app_assoc. reflexivity.
Qed.

(** ** Extended *)
Lemma toupper_upper c : toupper c = upper c. Proof. reflexivity. Qed.
Lemma role_ok r : r < 14 -> getSemanticRoleName r = Ok (nth r SEMANTIC_ROLE_NAMES []).
Proof.
  intros H. unfold getSemanticRoleName, name_of. rewrite (nth_error_nth' SEMANTIC_ROLE_NAMES [] ); [reflexivity|exact H].
Qed.
Lemma ext_blocks_ok h roles bs out fl : Forall (fun r => r < 14) roles ->
  fold_left (write_block_ext h roles) bs (Ok (out, fl)) =
  Ok (fold_left (sep_step [nl; nl]) (map (ext_text h) (filter (fun b => if in_dec Nat.eq_dec (b_role b) roles then true else false) bs)) (out, fl)).
Proof.
  intros HR. revert out fl; induction bs as [|b bs IH]; intros out fl; [reflexivity|]. cbn [fold_left filter].
  unfold write_block_ext at 2. cbn [obind]. rewrite has_role_sel.
  destruct (in_dec Nat.eq_dec (b_role b) roles) as [I|N].
  - rewrite Forall_forall in HR. rewrite role_ok by (apply HR; assumption). cbn [obind]. rewrite IH. cbn [map fold_left].
    f_equal. f_equal. rewrite write_block_words_ok. unfold sep_step, ext_text, endl. cbn [fst snd].
    destruct fl, (b_emph b); cbn [app]; rewrite <- ?app_assoc; cbn [app]; reflexivity.
  - apply IH.
Qed.

(** One text per page: its selected blocks, behind an empty line unless they are the first of the document. *)
Lemma intercalate_app sep a b : a <> [] -> b <> [] -> intercalate sep (a ++ b) = intercalate sep a ++ sep ++ intercalate sep b.
Proof.
  intros Ha Hb. induction a as [|x a IH]; [congruence|]. destruct a as [|y a].
  - destruct b as [|z b]; [congruence|]. reflexivity.
  - change (intercalate sep ((x :: y :: a) ++ b)) with (x ++ sep ++ intercalate sep ((y :: a) ++ b)).
    rewrite IH by congruence. change (intercalate sep (x :: y :: a)) with (x ++ sep ++ intercalate sep (y :: a)).
    rewrite <- !app_assoc. reflexivity.
Qed.

Theorem ext_ok d h roles out : Forall (fun r => r < 14) roles ->
  exists texts, Forall2 (page_text_ok h roles) (d_pages d) texts /\
    concat texts = intercalate [nl; nl] (map (ext_text h) (flat_map (selected roles) (d_pages d))) /\
    ext_serialize d h roles out = Ok (out ++ concat (map (fun t => t ++ [nl; ff]) texts) ++ [nl]).
Proof.
  intros HR. unfold ext_serialize.
  assert (G : forall ps (out : str) (fl : bool), exists texts, Forall2 (page_text_ok h roles) ps texts /\
    concat texts = (if fl then concat (map (app [nl; nl]) (map (ext_text h) (flat_map (selected roles) ps)))
                    else intercalate [nl; nl] (map (ext_text h) (flat_map (selected roles) ps))) /\
    exists fl', fold_left (write_page_ext h roles) ps (Ok (out, fl)) = Ok (out ++ concat (map (fun t => t ++ [nl; ff]) texts), fl')).
  { induction ps as [|p ps IH]; intros o fl.
    - exists []. split; [constructor|]. split; [destruct fl; reflexivity|]. exists fl. cbn. rewrite app_nil_r. reflexivity.
    - set (bs := map (ext_text h) (selected roles p)).
      set (t := if fl then concat (map (app [nl; nl]) bs) else intercalate [nl; nl] bs).
      assert (Ep : write_page_ext h roles (Ok (o, fl)) p = Ok (o ++ t ++ [nl; ff], fl || negb (isnil bs))).
      { unfold write_page_ext. rewrite ext_blocks_ok by assumption. fold (selected roles p).
        rewrite sep_fold. cbn [obind]. fold bs. f_equal. f_equal. unfold t, endl. rewrite <- !app_assoc. reflexivity. }
      destruct (IH (o ++ t ++ [nl; ff]) (fl || negb (isnil bs))) as (texts & HF & HC & fl' & HE).
      exists (t :: texts). split; [|split].
      + constructor; [|assumption]. unfold page_text_ok. subst t bs.
        destruct (selected roles p) as [|b sel].
        * left. split; [reflexivity|]. destruct fl; reflexivity.
        * right. split; [congruence|]. destruct fl; [right|left; reflexivity]. cbn [map]. apply concat_map_sep.
      + cbn [concat flat_map]. rewrite HC, map_app. fold bs. subst t. destruct fl; cbn [orb].
        * rewrite map_app, concat_app. reflexivity.
        * destruct bs as [|b bs']; cbn [isnil negb]; [reflexivity|].
          destruct (map (ext_text h) (flat_map (selected roles) ps)) as [|c cs].
          -- cbn [map concat]. rewrite !app_nil_r. reflexivity.
          -- rewrite concat_map_sep. rewrite intercalate_app by congruence. reflexivity.
      + exists fl'. cbn [fold_left]. rewrite Ep. etransitivity; [exact HE|]. cbn [map concat]. rewrite <- !app_assoc. reflexivity. }
  destruct (G (d_pages d) out false) as (texts & HF & HC & fl' & HE). exists texts.
  split; [assumption|]. split; [assumption|]. rewrite HE. cbn [obind]. rewrite <- app_assoc. reflexivity.
Qed.

(** An unselected or unknown role cannot be reached, but a role outside the enum that is selected is undefined. *)
Theorem ext_bad_role : exists d h roles, is_ub (ext_serialize d h roles []) = true.
Proof.
  exists (mkDoc [mkPage 1 dzero dzero [] [] [mkBlock [] 0 pos_default [] [] dzero 14 false []]] []),
         (fun _ => mkWord [] 0 pos_default [] [] dzero [] None [] None None), [14].
  reflexivity.
Qed.

(** ** Destination *)
Lemma find_last_some c s i : find_last c s = Some i -> exists a b, s = a ++ c :: b /\ ~ In c b /\ length a = i.
Proof.
  unfold find_last. intros H.
  assert (H' : find (fun i => Ascii.eqb (nth i s "000"%char) c) (rev (seq 0 (length s))) = Some i) by (destruct (find _ _); [congruence|discriminate]).
  clear H. revert H'. rewrite <- (firstn_all s) at 1. 
  assert (G : forall n, n <= length s -> find (fun i => Ascii.eqb (nth i s "000"%char) c) (rev (seq 0 n)) = Some i ->
     i < n /\ nth i s "000"%char = c /\ forall j, i < j -> j < n -> nth j s "000"%char <> c).
  { induction n as [|n IH]; intros Hn H; [discriminate|]. rewrite seq_S, rev_unit in H. cbn [find plus] in H.
    destruct (Ascii.eqb_spec (nth n s "000"%char) c) as [E|E].
    - injection H as <-. split; [lia|]. split; [assumption|]. intros j Hj Hj'. lia.
    - destruct IH as (Hi & Hc & Hj); [lia|assumption|]. split; [lia|]. split; [assumption|]. intros j Hj1 Hj2.
      destruct (Nat.eq_dec j n) as [->|]; [assumption|]. apply Hj; lia. }
  rewrite firstn_all. intros H. destruct (G _ (le_n _) H) as (Hi & Hc & Hj).
  exists (firstn i s), (skipn (S i) s). split; [|split].
  - rewrite <- (firstn_skipn i s) at 1. f_equal. rewrite <- Hc. clear -Hi. revert i Hi. induction s as [|x s IH]; intros i Hi; [cbn in Hi; lia|].
    destruct i as [|i]; [reflexivity|]. cbn in *. apply IH. lia.
  - intros I. apply (In_nth _ _ "000"%char) in I. destruct I as (j & Hjl & Ej). rewrite skipn_length in Hjl.
    assert (E : nth j (skipn (S i) s) "000"%char = nth (S i + j) s "000"%char).
    { rewrite <- (firstn_skipn (S i) s) at 2. rewrite app_nth2; rewrite firstn_length, Nat.min_l by lia; [f_equal; lia|lia]. }
    rewrite E in Ej. apply (Hj (S i + j)); [lia|lia|assumption].
  - rewrite firstn_length. lia.
Qed.
Lemma find_last_none c s : find_last c s = None -> ~ In c s.
Proof.
  unfold find_last. intros H I.
  assert (H' : find (fun i => Ascii.eqb (nth i s "000"%char) c) (rev (seq 0 (length s))) = None) by (destruct (find _ _); [discriminate|reflexivity]).
  apply (In_nth _ _ "000"%char) in I. destruct I as (j & Hj & E).
  pose proof (find_none _ _ H' j) as F. cbv beta in F. rewrite E, Ascii.eqb_refl in F. cut (true = false); [discriminate|]. apply F.
  apply -> in_rev. apply in_seq. lia.
Qed.
(** The directory part: everything before the last slash, "." without a slash. *)
Lemma parentDir_ok path : dir_of path (parentDir path).
Proof.
  unfold parentDir, dir_of. destruct (find_last "/" path) as [i|] eqn:E.
  - apply find_last_some in E. destruct E as (a & b & -> & Hb & <-). left. exists b.
    rewrite firstn_app, firstn_all, Nat.sub_diag. cbn [firstn]. rewrite app_nil_r. auto.
  - right. split; [apply find_last_none; assumption|reflexivity].
Qed.
Theorem serialize_ok shell can_open text path :
  (path = S_ "-" -> serialize shell can_open text path = [Stdout text]) /\
  (path <> S_ "-" -> exists dir, dir_of path dir /\
     let cmd := S_ "mkdir -p " ++ dir in
     (shell cmd = 0%Z -> can_open path = true -> serialize shell can_open text path = [Shell cmd; WriteFile path text]) /\
     (shell cmd <> 0%Z \/ can_open path = false -> exists msg, serialize shell can_open text path = [Shell cmd; Stderr msg])).
Proof.
  split.
  - intros ->. reflexivity.
  - intros N. exists (parentDir path). split; [apply parentDir_ok|]. unfold serialize.
    destruct ((length path =? 1) && Ascii.eqb (hd "000"%char path) "-") eqn:E.
    + exfalso. apply N. apply andb_prop in E. destruct E as [E1 E2]. apply Nat.eqb_eq in E1. apply Ascii.eqb_eq in E2.
      destruct path as [|c [|c' p]]; cbn in *; try discriminate. subst. reflexivity.
    + cbv zeta. split.
      * intros H1 H2. rewrite H1, H2. reflexivity.
      * intros H. destruct (Z.eqb_spec (shell (S_ "mkdir -p " ++ parentDir path)) 0) as [E0|E0]; cbn [negb].
        { destruct H as [H|H]; [congruence|]. rewrite H. cbn [negb]. eauto. }
        eauto.
Qed.
