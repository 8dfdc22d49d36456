M=[]
def m(id,thm,edits,english,ref,pre=''): M.append(dict(id=id,thm=thm,edits=edits,english=english,ref=ref,pre=pre))
m('T01','C17_progress',[('Tokenizer',"let '(r, it'') := read_peek g pw offset byte it' in (Some r, it'')","let '(r, it'') := read_peek g pw offset byte it' in (Some r, match r with Err _ => skip_ws it | _ => it'' end)")],
 'next() that returns an error does not advance',
 'intro H. specialize (H false W64 (bs "?") (tokenizer_new (bs "?"))). destruct H as [_ H]; [slice|exists []; reflexivity|]. vm_compute in H. lia.')
m('T02','C17_iteration_ends',[('Tokenizer',"let '(r, it'') := read_peek g pw offset byte it' in (Some r, it'')","let '(r, it'') := read_peek g pw offset byte it' in (Some r, match r with Err _ => skip_ws it | _ => it'' end)")],
 'iteration over an error never ends',
 'intro H. destruct (H false W64 (bs "?") (tokenizer_new (bs "?"))) as (k & Hk & _ & E); [slice|exists []; reflexivity|]. vm_compute in Hk. assert (k = 0 \\/ k = 1)%nat as [-> | ->] by lia; bad E.')
m('T03','C19_next_or_eof_agrees',[('Tokenizer',"let '(r, it'') := read_peek g pw offset byte it' in (Some r, it'')","let '(r, it'') := read_peek g pw offset byte it' in (Some r, match r with Err _ => skip_ws it | _ => it'' end)")],
 'next_or_eof leaves the tokenizer in another state than next after an error',
 'intro H. specialize (H false W64 (bs "?") (tokenizer_new (bs "?"))). assert (G : forall P : Prop, P -> (P -> False) -> False) by tauto. refine (G _ (H _ _) _); [slice|exists []; reflexivity|]. intro K. bad K.')
OBT='Definition xe : json_string := Eval vm_compute in match string_from_json W64 (bs """\\u0041""") with Ok x => x | _ => JStr (CRaw (Borrowed [])) 0 end.\nLemma oe : obtainable W64 xe. Proof. left. exists config_default, (bs """\\u0041"""), (VString xe). split; [left; split; [slice|c]|constructor]. Qed.\n'
OBT='''Definition xe : json_string := Eval vm_compute in match string_from_json W64 (bs """\\u0041""") with Ok x => x | _ => JStr (CRaw (Borrowed [])) 0 end.
Lemma oe : obtainable W64 xe. Proof. left. apply (parsed_string W64 xe (bs """\\u0041""")); [str|c]. Qed.
Definition ya : json_string := Eval vm_compute in match string_from_json W64 (bs """A""") with Ok x => x | _ => JStr (CRaw (Borrowed [])) 0 end.
Lemma oa : obtainable W64 ya. Proof. left. apply (parsed_string W64 ya (bs """A""")); [str|c]. Qed.
'''
m('T04','C25_eq_str_is_text_equality',[('StrModel',"if negb (expected_length pw (js_info s) =? N.of_nat (length other)) then Ok false","if false then Ok false")],
 'json == str does not compare the lengths before zipping','''intro H. specialize (H W64 xe [65] (bs "AB") oe eq_refl). destruct H as (b & E & K); [apply utf8_valid_iff; c|].
 vm_compute in E. injection E as <-. destruct K as [K _]. specialize (K eq_refl). bad K.''',OBT)
m('T05','C29_cmp_consistent_exactly',[('StrModel',"if negb (has_escapes pw (js_info s)) && negb (has_escapes pw (js_info other))","if negb (has_escapes pw (js_info s)) || negb (has_escapes pw (js_info other))")],
 'cmp of an escaped and an unescaped string compares the source','''intro H. destruct (H W64 xe ya [65] [65] oe oa eq_refl eq_refl) as [[_ K] _]. specialize (K eq_refl). bad K.''',OBT)
m('T06','C49_truncated_rejected',[('Parser',"| Some PkArrayEnd => (Ok true, PS (BI (bi_bytes it) (bi_offset it + 1)) (ps_del s) (ps_depth s))","| Some PkArrayEnd => (Ok true, PS (BI (bi_bytes it) (bi_offset it + 1)) (ps_del s) (ps_depth s))\n    | None => (Ok true, PS it (ps_del s) (ps_depth s))")],
 'an array that is not closed is accepted','''intro H. destruct (H W64 config_default (bs "[") (bs "]") (VArray []) (VArray [])) as [K _]; [slice|c|intros n E; discriminate E|c|]. inversion K; subst. unfold ws_byte in *. lia.''')
m('T07','C57_error_inside_is_final',[('Parser',"| KUnexpectedEof => Error (err_offset e) k","| KUnexpectedEof => Error 0 k")],
 'an unclosed array is reported at offset 0','''intro H. apply (H W64 config_default (bs "[1") (bs "]") 0%nat KUnclosedArray (VArray [VNumber (JNum (Borrowed (bs "1")))])); [slice|c|cbn; lia|discriminate|c].''')
m('T08','C59_limit_changes_no_other_result',[('Parser',"else (Err (Error offset KRecursionLimitReached), s)","else (Err (Error offset KTrailingNonWhitespace), s)")],
 'the recursion limit is reported as another error','''intro H. destruct (H W64 config_default 0 (bs "[]")) as [K|(o & K)]; [slice|bad K|bad K].''')
m('T09','C59_no_limit_no_error',[('Parser',"Config (allow_trailing_commas c) None (allow_all_types_at_root c)","Config (allow_trailing_commas c) (Some 256) (allow_all_types_at_root c)")],
 'without_recursion_limit keeps a limit','''intro H. eapply (H W64 config_default (repeat 91 257)); [slice|c].''')
m('T10','C61_info_round_trip',[('StrModel',"match pw with W32 => 0x7FFFFFFF | W64 => 0x7FFFFFFFFFFFFFFF end.\n\n(** src/string.rs 600","match pw with W32 => 0x3FFFFFFF | W64 => 0x7FFFFFFFFFFFFFFF end.\n\n(** src/string.rs 600")],
 'the length mask is one bit short on 32 bits','''intro H. destruct (H W32 false 0x40000000) as [K _]; [vm_compute; discriminate|bad K].''')
m('T11','C64_object',[('ValueModel',"wthen (w_write_json key)","wthen (w_write (contents_str (js_source key)))")],
 'object keys are written without quotes','''intro H. destruct (H W64 [(ya, VNull)] (bs "{""A"":null}")) as [_ K]. assert (E : to_json W64 (VObject [(ya, VNull)]) = Ok (bs "{""A"":null}")); [|bad E].
 apply K. exists [bs """A"":null"]. split; [|c]. constructor; [|constructor]. exists (bs """A"""), (bs "null"). repeat split; c.''',OBT)
m('T12','C68_compact_not_longer',[('ValueModel',"(if pretty then [58%N; 32%N] else [58%N])","(if pretty then [58%N; 32%N] else [58%N; 32%N])")],
 'compact text has a space after the colon','''intro H. assert (P : parsed_from W64 config_default (bs "{""a"":1}") v1) by from. eapply (H _ _ _ _ u1) in P; [|c]. vm_compute in P. lia.''',
 '''Definition v1 := Eval vm_compute in match value_from_json_bytes W64 (bs "{""a"":1}") with Ok v => v | _ => VNull end.
Definition u1 := Eval vm_compute in match to_json W64 v1 with Ok v => v | _ => [] end.''')
m('T13','C70_wrap',[('Parser',"if 0 <? ps_depth s then","if 1 <? ps_depth s then")],
 'the recursion limit is reached one level early','''intro H. assert (P : parsed_from W64 (Config false (Some 0) true) (bs "1") v1) by from. apply (H W64 false (Some 0) true) in P; [|vm_compute; discriminate]. destruct P as [[_ E]|[_ E]]; bad E.''',
 '''Definition v1 := Eval vm_compute in match value_from_json_bytes W64 (bs "1") with Ok v => v | _ => VNull end.''')
m('T14','C74_none_is_final',[('StrModel',"  | ENone =>\n    match next_char (aj_chars a) with\n    | None => Ok (None, a)","  | ENone =>\n    match next_char (aj_chars a) with\n    | None => Ok (None, AJ [] (ESingle 34) (aj_info a))")],
 'as_json() yields a quote after its end','''intro H. destruct (H W64) as [_ K]. specialize (K (AJ [] ENone 0) _ eq_refl 1%nat). bad K.''')
m('T15','C75_escaping_grows_at_most_sixfold',[('StrModel',"else if ch =? 0x0A then single 110\n","")],
 'newlines are escaped as \\\\u000a (six characters)','''intro H. destruct (H W64 [10] x0 [10] o0) as (_ & K & _); [split; [str|left; c]|c|c|bad K].''',
 '''Definition x0 := Eval vm_compute in match js_from_str W64 [10] with Ok v => v | _ => JStr (CRaw (Borrowed [])) 0 end.
Definition o0 := Eval vm_compute in match js_as_json W64 x0 with Ok v => v | _ => [] end.''')
m('T16','C76_same_text_same_value',[('ValueModel',"w_write (if b then [116; 114; 117; 101]%N else [102; 97; 108; 115; 101]%N)","w_write (if b then [116; 114; 117; 101]%N else [116; 114; 117; 101]%N)")],
 'false is written as true','''intro H. assert (P : parsed_from W64 config_default (bs "true") (VBoolean true)) by from. assert (Q : parsed_from W64 config_default (bs "false") (VBoolean false)) by from.
 destruct (H _ _ _ _ _ _ _ P Q) as [[K _] _]. assert (E : VBoolean true = VBoolean false) by (apply K; c). discriminate E.''')
m('T17','C78_callbacks_are_linear',[('Parser',"pbind (p_del offset (fun st => d_begin_array D st)) (fun array =>","pbind (p_del offset (fun st => d_begin_array D st)) (fun array =>\n    pbind (p_del offset (fun st => d_begin_array D st)) (fun array =>"),('Parser',"pbind (p_del offset (fun st => d_end_array D st array)) (fun value =>\n    pbind end_nest (fun _ => pret value))))).","pbind (p_del offset (fun st => d_end_array D st array)) (fun value =>\n    pbind end_nest (fun _ => pret value)))))).")],
 'begin_array is called twice','''intro H. specialize (H false W64 config_default unit_delegate (bs "[]") tt). vm_compute in H. assert (G : forall P : Prop, P -> (P -> False) -> False) by tauto. refine (G _ (H _) _); [slice|]. lia.''')
m('T18','C79_values_and_documents',[('Parser',"      if is_end : bool then\n        pbind (if allow_trailing_commas cfg then pret true\n","      if is_end : bool then\n        pbind (if allow_trailing_commas cfg then pbind (p_query (fun st => d_array_is_empty D st array)) (fun b => pret (negb b))\n")],
 'with trailing commas allowed the empty array is rejected','''intro H. destruct (H W64 config_default (allowing_trailing_commas config_default) (bs "[]")) as [K _]; [apply (C79_builders config_default 0 0)|].
 assert (E : value_from_json_with_config W64 (bs "[]") (allowing_trailing_commas config_default) = value_from_json_with_config W64 (bs "[]") config_default); [apply K; vm_compute; tauto|bad E].''')
m('T19','C80_callbacks_are_causal',[('Parser',"    pbind (read_tokens loops fuel) (fun value =>\n    pbind (check_root value)","    pbind (fun s => if existsb (N.eqb 0) (bi_bytes (ps_iter s)) then (Err (Error 0 KUnexpectedEof), s) else (Ok tt, s)) (fun _ : unit =>\n    pbind (read_tokens loops fuel) (fun value =>\n    pbind (check_root value)"),('Parser',"pbind check_trailing (fun _ => pret value))).","pbind check_trailing (fun _ => pret value)))).")],
 'the whole input is searched for NUL before anything is reported','''intro H. specialize (H false W64 config_default unit_delegate (bs "[1, ") [0] tt).
 destruct (parse_with false W64 (recording unit_delegate) (bs "[1, ") config_default (tt, [])) as [r1 [st1 l1]] eqn:E1.
 destruct (parse_with false W64 (recording unit_delegate) (bs "[1, " ++ [0]) config_default (tt, [])) as [r2 [st2 l2]] eqn:E2.
 assert (D : ~ ends_in_digit (bs "[1, ")).
 { intros (p & d & E & Hd). change (bs "[1, ") with ((bs "[1,") ++ [32]) in E. apply app_inj_tail in E as [_ E]. unfold is_true in *; subst d; cbn in Hd; first [lia|discriminate Hd]. }
 destruct (H r1 st1 l1 r2 st2 l2 ltac:(slice) ltac:(slice) D E1 E2) as [K _].
 vm_compute in E1, E2. injection E1 as <- <- <-. injection E2 as <- <- <-. destruct K as (z & E). bad E.''')
m('T20','C81_string_observations',[('StrModel',"match pw with W32 => 0x7FFFFFFF | W64 => 0x7FFFFFFFFFFFFFFF end.\n\n(** src/string.rs 600","match pw with W32 => 0x7FFFFFFF | W64 => 0xFFFFFFFF end.\n\n(** src/string.rs 600")],
 'the 64-bit length mask has 32 bits','''intro H. destruct (H (JStr (CJson (Borrowed (bs "\\n"))) 0x80000001) ya [10]) as (K1 & K2 & K3 & K). try (bad K1); try (bad K2); try (bad K3). all: repeat (destruct K as [K0 K]; try (bad K0)); bad K.''',OBT)
m('T21','C84_parser_reads_the_tokens',[('Parser',"""        if ok then pret array else perr offset KIllegalTrailingComma)
      else""","""        if ok then pret array else pret array)
      else""")],
 'a trailing comma is accepted in arrays','''intro H. destruct (H false W64 (bs "[1,]") config_default (VArray [VNumber (JNum (Borrowed (bs "1")))])) as [K _]; [slice|].
 destruct K as [(tks & T & V) _]; [c|]. apply C84_without_trailing_commas in V. subst. bad T.''')
m('T22','C86_chains',[('ValueModel',"| x :: l', O => Some (x, fun y => y :: l')","| x :: l', O => Some (x, fun y => y :: x :: l')")],
 'storing through get_index_mut inserts','''intro H. destruct (H W64 (VArray [VNull]) [PropPath.Index 0]) as [(x & store & E1 & E2 & K)|[K _]]; [repeat constructor|repeat constructor| |bad K].
 vm_compute in E1. injection E1 as <-. cbn in E2. injection E2 as <-. specialize (K (VBoolean true)). inversion K as [| |pre v post p x y v' R E3 E4]; subst.
 destruct pre; [|discriminate]. cbn in *. inversion R; subst. congruence.''')
m('T23','C87_decode_copies_only_changed_text',[('StrModel',"let? cs := js_decoded pw s in Ok (Owned (utf8_string cs))\n    else Ok source","let? cs := js_decoded pw s in Ok (Owned (utf8_string cs))\n    else Ok (Owned (any_str source))")],
 'decode_if_needed copies text that needs no decoding','''intro H. destruct (H W64 ya oa) as (a & E & K). vm_compute in E. injection E as <-. destruct K as [[_ K]|[K _]]; [bad K|apply K; reflexivity].''',OBT)
m('T24','C88_accepted_is_rfc8259',[('Tokenizer',"(b =? 32) || (b =? 10)","(b =? 12) || (b =? 32) || (b =? 10)")],
 'form feed is whitespace','''intro H. specialize (H W64 [12; 49]). destruct (value_from_json_bytes W64 [12; 49]) as [v| |] eqn:E; [|bad E|bad E].
 destruct (H v) as (cs & Hs & Ec & D); [slice|reflexivity|]. 
 apply rfc_in_paired in D; [|intro X; destruct X].
 idtac.''')
m('T25','C89_parsing_is_linear',[('LookModel',"let '(o, n) := c_skip_ws_loop (bi_rest it) (bi_offset it) in (BI (bi_bytes it) o, n).","let '(o, n) := c_skip_ws_loop (bi_rest it) (bi_offset it) in (BI (bi_bytes it) o, seq 0 (bi_offset it) ++ n).")],
 'whitespace is skipped from the start of the input each time','''intro H. specialize (H false W64 config_default unit_delegate (bs "[1,1,1,1,1,1,1,1,1,1,1,1,1,1,1,1,1,1]") tt). vm_compute in H. destruct H as (_ & H & _). lia.''')
m('T26','C90_tokenizer_nothing_else_is_looked_at',[('LookModel',"Definition c_peek (it : byte_iter) : option N * list nat := (bi_peek it, [bi_offset it]).","Definition c_peek (it : byte_iter) : option N * list nat := (bi_peek it, []).")],
 'peeks are not recorded as looks','''intro H. specialize (H false W64 [49] [49; 50] [CallNext]). vm_compute in H. destruct H as (H & _); [|bad H]. intros p Hp. repeat (destruct Hp as [<-|Hp]; [try reflexivity|]); [|destruct Hp]. exfalso; shelve.''')
m('T27','C94_all_entry_points_str',[('Parser',"(Err (Error offset KTrailingNonWhitespace), PS it","(Err (Error (offset + 1) KTrailingNonWhitespace), PS it")],
 'trailing text is reported one byte late','''intro H. destruct (H W64 config_default None (bs "1" ++ [0xC3; 0xA9])) as (K & _); [str|]. specialize (K _ ltac:(c)). destruct K as (a & b & E & L & Ha & _). vm_compute in L.
 destruct a as [|a0 [|a1 [|]]]; try discriminate L. cbn in E. injection E as <- <- _. apply utf8_valid_iff in Ha. bad Ha.''')
m('T28','C95_built_values',[('ValueModel',"wthen (w_write [91%N]) w_level_up","wthen (w_write [91%N; 10%N]) w_level_up")],
 'a newline after every [ in compact text','''intro H. specialize (H W64 [10] [VArray []] [[91; 10; 93]] (or_introl eq_refl)). assert (E : lines (List.concat (map (fun u => u ++ [10]) [[91; 10; 93]])) = [[91; 10; 93]]); [|bad E]. apply H; [repeat constructor|]. constructor; [c|constructor].''')
m('T29','C98_parts_in_order',[('ValueModel',"d_object_value := fun st o k v => (Ok (o ++ [(k, v)]), st);","d_object_value := fun st o k v => (Ok ((k, v) :: o), st);")],
 'the last member of an object comes first','''intro H. assert (P : parsed_from W64 config_default (bs "{""a"":1,""b"":2}") v1) by from. apply H in P. vm_compute in P.
 repeat match goal with K : placed (_ :: _) _ |- _ => inversion K; clear K; subst end.
 repeat match goal with E : ?g ++ _ = _ |- _ => destruct g; [cbn in E; try discriminate E; try (injection E as E; subst)|cbn in E; try discriminate E; injection E as ? E; subst] end.''',
 '''Definition v1 := Eval vm_compute in match value_from_json_bytes W64 (bs "{""a"":1,""b"":2}") with Ok v => v | _ => VNull end.''')
m('T30','C99_no_undefined_behaviour',[('Tokenizer',"if utf8_valid run then read_string_loop g pw fuel' start i'","if true then read_string_loop g pw fuel' start i'")],
 'bytes in strings are not checked to be UTF-8','''intro H. destruct (H W64 [IBytes [34; 255; 34]] (ParseValueBytes [34; 255; 34] config_default)) as [K _]; [apply holds_bytes; [slice|constructor]|intros i Hi; exact Hi|]. apply K. c.''')
m('T31','C38_round_trip_iff',[('StrModel',"else if (ch =? 34) || (ch =? 92) || (ch =? 47) then single ch","else if (ch =? 34) then single 39 else if (ch =? 92) || (ch =? 47) then single ch")],
 "a quote is escaped as \\\\'",'''intro H. destruct (H W64 config_default (VString x0) (bs """\\'""")) as [_ K]; [split; [constructor; right; exists [34]; split; [str|left; c]|constructor]|idtac "serialized"|vm_compute; discriminate|].''',
 '''Definition x0 := Eval vm_compute in match js_from_str W64 [34] with Ok v => v | _ => JStr (CRaw (Borrowed [])) 0 end.''')
