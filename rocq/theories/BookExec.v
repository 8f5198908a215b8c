(** * Execution of a given schedule of a book, for examples *)

From Coq Require Import Ascii String.
From Coq Require Import List Arith ZArith Bool Lia.
From Verif Require Import GoStr UtilModel ConfigModel CacheModel CacheSpec HttpModel HttpSpec HttpProofs ServiceModel ServiceSpec ServiceProofs
  TokenModel TokenizerModel TemplateModel TemplateProofs CleanerModel ArticleModel HtmlModel PoolModel BookModel.
Import ListNotations.
Local Open Scope list_scope.

Inductive book_move := MSend | MClose | MReceive (i : nat) | MAct (i : nat) | MParse (i : nat) | MAsk (i : nat) | MAnswer (i : nat) | MFetch (i : nat) | MRender (i : nat) | MDraw (i : nat) (formula : str) | MFiles (i : nat) | MWrite (i : nat) | MFinish (i : nat) | MEnd (i : nat).

Section Exec.
  Variables (ext : externals) (ccfg : cache_config) (efuel fuel : nat) (wiki : wiki_config) (cfg : configuration).
  Variable articles : list str.
  Variable WorkerThreads : nat.
  Variable recreate : world -> str -> bool.
  Variables (cacheDir folder suffix : str).
  Variable generate : str -> str -> Tokenizer -> list (str * (path * path)) -> str -> Prop.
  Variable server : str -> option response.
  Variable ask : str -> list (str * str) -> option str.
  Variable tok : str -> list (str * str) -> option (str * Tokenizer).
  Variable gen : str -> str -> Tokenizer -> list (str * (path * path)) -> option str.
  Hypothesis ask_ok : forall x h q, ask x h = Some q -> asks ext cfg x h q.
  Hypothesis tok_ok : forall x h c t, tok x h = Some (c, t) -> Tokenize (Hash ext) (replies h) cfg x (ArticleModel.Article c t).
  Hypothesis gen_ok : forall a c t l o, gen a c t l = Some o -> generate a c t l o.

  Definition act_stage (s : stage) (w : world) : option (list net_event * stage * world) :=
    match s with
    | Skipped => None
    | Loading p => match act server ccfg efuel p w with Some (ev, p', w') => Some (ev, Loading p', w') | None => None end
    | Parsing x h => None
    | Asking x h q p => match act server ccfg efuel p w with Some (ev, p', w') => Some (ev, Asking x h q p', w') | None => None end
    | Fetching x t p => match act server ccfg efuel p w with Some (ev, p', w') => Some (ev, Fetching x t p', w') | None => None end
    | Rendering x t l => None
    | Drawing x t l f p => match act server ccfg efuel p w with Some (ev, p', w') => Some (ev, Drawing x t l f p', w') | None => None end
    | Writing p => match act server ccfg efuel p w with Some (ev, p', w') => Some (ev, Writing p', w') | None => None end
    end.

  Definition do_book (m : book_move) (s : book_state) : option book_state :=
    let '(mkBookState rest c q0 ws out w net) := s in
    match m with
    | MSend => match rest with a :: rest' => if negb c && (List.length q0 <? WorkerThreads) then Some (mkBookState rest' false (q0 ++ [a]) ws out w net) else None | [] => None end
    | MClose => match rest with [] => if c then None else Some (mkBookState [] true q0 ws out w net) | _ => None end
    | MReceive i => match nth_error ws i, q0 with
                    | Some Free, a :: q' => Some (mkBookState rest c q' (set_nth i (Busy a (first_stage ext fuel wiki recreate w a)) ws) out w net)
                    | _, _ => None
                    end
    | MAct i => match nth_error ws i with
                | Some (Busy a st) => match act_stage st w with Some (ev, st', w') => Some (mkBookState rest c q0 (set_nth i (Busy a st') ws) out w' (net ++ ev)) | None => None end
                | _ => None
                end
    | MParse i => match nth_error ws i with
                  | Some (Busy a (Loading (TRet (Ok (ServiceModel.Article _ x))))) => Some (mkBookState rest c q0 (set_nth i (Busy a (Parsing x [])) ws) out w net)
                  | _ => None
                  end
    | MAsk i => match nth_error ws i with
                | Some (Busy a (Parsing x h)) =>
                  match ask x h with
                  | Some q => Some (mkBookState rest c q0 (set_nth i (Busy a (Asking x h q (program ext fuel (GetTemplate wiki q)))) ws) out w net)
                  | None => None
                  end
                | _ => None
                end
    | MAnswer i => match nth_error ws i with
                   | Some (Busy a (Asking x h q (TRet (Ok (Text y))))) => Some (mkBookState rest c q0 (set_nth i (Busy a (Parsing x ((q, y) :: h))) ws) out w net)
                   | _ => None
                   end
    | MFetch i => match nth_error ws i with
                  | Some (Busy a (Parsing x h)) =>
                    match tok x h with
                    | Some (y, t) => Some (mkBookState rest c q0 (set_nth i (Busy a (Fetching y t (program ext fuel (GetImages wiki (images t))))) ws) out w net)
                    | None => None
                    end
                  | _ => None
                  end
    | MRender i => match nth_error ws i with
                   | Some (Busy a (Fetching y t (TRet (Ok _)))) => Some (mkBookState rest c q0 (set_nth i (Busy a (Rendering y t [])) ws) out w net)
                   | _ => None
                   end
    | MDraw i f => match nth_error ws i with
                   | Some (Busy a (Rendering y t l)) => Some (mkBookState rest c q0 (set_nth i (Busy a (Drawing y t l f (program ext fuel (GetMath wiki MathNone f)))) ws) out w net)
                   | _ => None
                   end
    | MFiles i => match nth_error ws i with
                  | Some (Busy a (Drawing y t l f (TRet (Ok (Files svg png))))) => Some (mkBookState rest c q0 (set_nth i (Busy a (Rendering y t ((f, (svg, png)) :: l))) ws) out w net)
                  | _ => None
                  end
    | MWrite i => match nth_error ws i with
                  | Some (Busy a (Rendering y t l)) =>
                    match gen a y t l with
                    | Some o => Some (mkBookState rest c q0 (set_nth i (Busy a (Writing (program ext fuel (Result folder (a ++ suffix) [o])))) ws) out w net)
                    | None => None
                    end
                  | _ => None
                  end
    | MFinish i => match nth_error ws i with
                   | Some (Busy a Skipped) => Some (mkBookState rest c q0 (set_nth i Free ws) (set_nth (articleNumber articles a) [] out) w net)
                   | Some (Busy a (Writing (TRet (Ok _)))) => Some (mkBookState rest c q0 (set_nth i Free ws) (set_nth (articleNumber articles a) (output_file cacheDir folder suffix a) out) w net)
                   | _ => None
                   end
    | MEnd i => match nth_error ws i, q0, c with
                | Some Free, [], true => Some (mkBookState rest true [] (set_nth i Gone ws) out w net)
                | _, _, _ => None
                end
    end.

  Fixpoint book_schedule (ms : list book_move) (s : book_state) : option book_state :=
    match ms with
    | [] => Some s
    | m :: ms' => match do_book m s with Some s' => book_schedule ms' s' | None => None end
    end.

  Lemma act_stage_action : forall s w ev s' w', act_stage s w = Some (ev, s', w') -> stage_action ccfg efuel s w ev s' w'.
  Proof.
    intros s w ev s' w' H. destruct s as [|p|x h|x h q p|x t p|x t l|x t l f p|p]; cbn [act_stage] in H; try discriminate;
      (destruct (act server ccfg efuel p w) as [[[ev1 p1] w1]|] eqn:E; [|discriminate]; injection H as <- <- <-; constructor; eapply act_action; exact E).
  Qed.

  Lemma do_book_step : forall m s s', do_book m s = Some s' -> book_step ext ccfg efuel fuel wiki cfg articles WorkerThreads recreate cacheDir folder suffix generate s s'.
  Proof.
    intros m [rest c q ws out w net] s' H. destruct m as [| |i|i|i|i|i|i|i|i f|i|i|i|i]; cbn [do_book] in H.
    - destruct rest as [|a rest]; [discriminate|]. destruct (negb c && (List.length q <? WorkerThreads)) eqn:E; [|discriminate]. injection H as <-. apply andb_true_iff in E as (E1 & E2).
      apply negb_true_iff in E1 as ->. apply Nat.ltb_lt in E2. constructor; auto.
    - destruct rest; [|discriminate]. destruct c; [discriminate|]. injection H as <-. constructor.
    - destruct (nth_error ws i) as [[| |]|] eqn:N; try discriminate. destruct q as [|a q]; [discriminate|]. injection H as <-. constructor; auto.
    - destruct (nth_error ws i) as [[|a st|]|] eqn:N; try discriminate. destruct (act_stage st w) as [[[ev st'] w']|] eqn:E; [|discriminate]. injection H as <-.
      eapply book_act; [exact N|]. apply act_stage_action; auto.
    - destruct (nth_error ws i) as [[|a [|[[[t x| | | |]| | |]| | |]|x h|x h q1 p|x t p|x t l|x t l f p|p]|]|] eqn:N; try discriminate. injection H as <-. eapply book_next; [exact N|]. constructor.
    - destruct (nth_error ws i) as [[|a [|p|x h|x h q1 p|x t p|x t l|x t l f p|p]|]|] eqn:N; try discriminate. destruct (ask x h) as [q1|] eqn:E; [|discriminate]. injection H as <-.
      eapply book_next; [exact N|]. constructor. apply ask_ok. exact E.
    - destruct (nth_error ws i) as [[|a [|p|x h|x h q1 [[[t1 x1|y| | |]| | |]| | |]|x t p|x t l|x t l f p|p]|]|] eqn:N; try discriminate. injection H as <-. eapply book_next; [exact N|]. constructor.
    - destruct (nth_error ws i) as [[|a [|p|x h|x h q1 p|x t p|x t l|x t l f p|p]|]|] eqn:N; try discriminate. destruct (tok x h) as [[y t]|] eqn:E; [|discriminate]. injection H as <-.
      eapply book_next; [exact N|]. econstructor; eauto.
    - destruct (nth_error ws i) as [[|a [|p|x h|x h q1 p|x t [[r| | |]| | |]|x t l|x t l f p|p]|]|] eqn:N; try discriminate. injection H as <-. eapply book_next; [exact N|]. constructor.
    - destruct (nth_error ws i) as [[|a [|p|x h|x h q1 p|x t p|x t l|x t l f1 p|p]|]|] eqn:N; try discriminate. injection H as <-. eapply book_next; [exact N|]. constructor.
    - destruct (nth_error ws i) as [[|a [|p|x h|x h q1 p|x t p|x t l|x t l f1 [[[| | |svg png|]| | |]| | |]|p]|]|] eqn:N; try discriminate. injection H as <-. eapply book_next; [exact N|]. constructor.
    - destruct (nth_error ws i) as [[|a [|p|x h|x h q1 p|x t p|x t l|x t l f p|p]|]|] eqn:N; try discriminate. destruct (gen a x t l) as [o|] eqn:E; [|discriminate]. injection H as <-.
      eapply book_next; [exact N|]. econstructor; [apply gen_ok; exact E|]. cbn. apply app_nil_r.
    - destruct (nth_error ws i) as [[|a [|p|x h|x h q1 p|x t p|x t l|x t l f p|[[r| | |]| | |]]|]|] eqn:N; try discriminate; injection H as <-; (eapply book_finish; [exact N|]; constructor).
    - destruct (nth_error ws i) as [[| |]|] eqn:N; try discriminate. destruct q; [|discriminate]. destruct c; [|discriminate]. injection H as <-. constructor; auto.
  Qed.

  Lemma book_schedule_runs : forall w net ms s s', book_runs ext ccfg efuel fuel wiki cfg articles WorkerThreads recreate cacheDir folder suffix generate w net s ->
    book_schedule ms s = Some s' -> book_runs ext ccfg efuel fuel wiki cfg articles WorkerThreads recreate cacheDir folder suffix generate w net s'.
  Proof.
    intros w net ms. induction ms as [|m ms IH]; intros s s' R H; cbn [book_schedule] in H; [injection H as <-; exact R|].
    destruct (do_book m s) as [s1|] eqn:E; [|discriminate]. eapply IH; [|exact H]. eapply book_more; [exact R|]. eapply do_book_step; eauto.
  Qed.
End Exec.
