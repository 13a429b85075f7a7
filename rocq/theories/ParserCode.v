(** The rule functions of kfgrammar/kuneiform_parser.go as data: made from that file by tools/parser_code.py, statement by
    statement, in the order of the rule numbers (kuneiform_parser.go RULE_ constants).  Each entry is the state number the function
    enters with and its body; GoParser.v says what the statements mean and which Go lines they stand for. *)
From Coq Require Import ZArith List.
From Verif Require Import GoParser.
Import ListNotations.
Local Open Scope Z_scope.

Definition rule_functions : list (Z * list code) := [
  (* 0: Source_unit, lines 715-818 *)
  (0, [Call 102 1 0;
    Match 103 2;
    Sync 107;
    For (LaIs 32) [Call 104 2 0; Sync 109];
    Sync 115;
    For (LaMask 34 4398046511111) [Sync 113; Switch [([34], [Call 110 8 0]); ([35; 76], [Call 111 22 0]); ([36], [Call 112 37 0])] true; Sync 117];
    Match 118 (-1)]);
  (* 1: Database_directive, lines 905-933 *)
  (2, [Match 120 31;
    Call 121 25 0]);
  (* 2: Extension_directive, lines 1083-1163 *)
  (4, [Match 123 32;
    Call 124 26 0;
    Sync 129;
    If (LaIs 4) [Match 125 4; Call 126 3 0; Match 127 6];
    Match 131 33;
    Call 132 26 0;
    Match 133 2]);
  (* 3: Ext_config_list, lines 1281-1331 *)
  (6, [Call 135 4 0;
    Sync 140;
    For (LaIs 7) [Match 136 7; Call 137 4 0; Sync 142]]);
  (* 4: Ext_config, lines 1435-1467 *)
  (8, [Call 143 27 0;
    Match 144 1;
    Call 145 36 0]);
  (* 5: Annotation_decl, lines 1576-1616 *)
  (10, [Call 147 33 0;
    Match 148 3;
    Call 149 6 0;
    Match 150 5]);
  (* 6: Annotation_attr_list, lines 1734-1784 *)
  (12, [Call 152 7 0;
    Sync 157;
    For (LaIs 7) [Match 153 7; Call 154 7 0; Sync 159]]);
  (* 7: Annotation_attr, lines 1888-1920 *)
  (14, [Call 160 34 0;
    Match 161 12;
    Call 162 35 0]);
  (* 8: Table_decl, lines 2130-2254 *)
  (16, [Match 164 34;
    Call 165 28 0;
    Match 166 4;
    Call 167 10 0;
    Sync 175;
    Loop 7 2 [Match 168 7; Sync 171; Switch [([74], [Call 169 15 0]); ([53; 54], [Call 170 17 0])] true] [Sync 177];
    Sync 179;
    If (LaIs 7) [Match 178 7];
    Match 181 6]);
  (* 9: Column_def, lines 2396-2442 *)
  (18, [Call 183 30 0;
    Call 184 11 0;
    Sync 188;
    For (LaMask 0 4486007441326080) [Call 185 12 0; Sync 190]]);
  (* 10: Column_def_list, lines 2560-2617 *)
  (20, [Call 191 9 0;
    Sync 196;
    Loop 10 2 [Match 192 7; Call 193 9 0] [Sync 198]]);
  (* 11: Column_type, lines 2697-2726 *)
  (22, [MatchSet 199 (LaMask 0 15393162788864)]);
  (* 12: Column_constraint, lines 2875-3089 *)
  (24, [Sync 229;
    Switch [([49], [Match 201 49]); ([48], [Match 202 48]); ([51], [Match 203 51]); ([50], [Match 204 50; Match 205 3; Call 206 13 0; Match 207 5]); ([44], [Match 209 44; Match 210 3; Call 211 14 0; Match 212 5]); ([45], [Match 214 45; Match 215 3; Call 216 14 0; Match 217 5]); ([46], [Match 219 46; Match 220 3; Call 221 14 0; Match 222 5]); ([47], [Match 224 47; Match 225 3; Call 226 14 0; Match 227 5])] true]);
  (* 13: Literal_value, lines 3164-3193 *)
  (26, [MatchSet 231 (LaOr (LaIs 77) (LaIs 78))]);
  (* 14: Number_value, lines 3263-3287 *)
  (28, [Match 233 77]);
  (* 15: Index_def, lines 3411-3464 *)
  (30, [Call 235 32 0;
    MatchSet 236 (LaMask 0 7318349394477056);
    Match 237 3;
    Call 238 31 0;
    Match 239 5]);
  (* 16: Foreign_key_action, lines 3569-3627 *)
  (32, [MatchSet 241 (LaOr (LaIs 57) (LaIs 58));
    Sync 243;
    If (LaIs 59) [Match 242 59];
    MatchSet 245 (LaMask 60 31)]);
  (* 17: Foreign_key_def, lines 3835-3939 *)
  (34, [MatchSet 247 (LaOr (LaIs 53) (LaIs 54));
    Match 248 3;
    Call 249 31 0;
    Match 250 5;
    MatchSet 251 (LaOr (LaIs 55) (LaIs 56));
    Call 252 28 0;
    Match 253 3;
    Call 254 31 0;
    Match 255 5;
    Sync 259;
    For (LaOr (LaIs 57) (LaIs 58)) [Call 256 16 0; Sync 261]]);
  (* 18: Action_visibility, lines 4014-4043 *)
  (36, [MatchSet 262 (LaOr (LaIs 37) (LaIs 38))]);
  (* 19: Action_mutability, lines 4113-4137 *)
  (38, [Match 264 39]);
  (* 20: Action_auxiliary, lines 4207-4231 *)
  (40, [Match 266 40]);
  (* 21: Action_attr_list, lines 4425-4488 *)
  (42, [Sync 273;
    For (LaMask 0 2061584302080) [Sync 271; Switch [([37; 38], [Call 268 18 0]); ([39], [Call 269 19 0]); ([40], [Call 270 20 0])] true; Sync 275]]);
  (* 22: Action_decl, lines 4689-4783 *)
  (44, [Sync 279;
    For (LaIs 76) [Call 276 5 0; Sync 281];
    Match 282 35;
    Call 283 29 0;
    Match 284 3;
    Call 285 23 0;
    Match 286 5;
    Call 287 21 0;
    Match 288 4;
    Call 289 38 0;
    Match 290 6]);
  (* 23: Param_list, lines 4901-4961 *)
  (46, [Sync 293;
    If (LaIs 75) [Call 292 24 0];
    Sync 299;
    For (LaIs 7) [Match 295 7; Call 296 24 0; Sync 301]]);
  (* 24: Parameter, lines 5031-5055 *)
  (48, [Match 302 75]);
  (* 25: Database_name, lines 5125-5149 *)
  (50, [Match 304 73]);
  (* 26: Extension_name, lines 5219-5243 *)
  (52, [Match 306 73]);
  (* 27: Ext_config_name, lines 5313-5337 *)
  (54, [Match 308 73]);
  (* 28: Table_name, lines 5407-5431 *)
  (56, [Match 310 73]);
  (* 29: Action_name, lines 5501-5525 *)
  (58, [Match 312 73]);
  (* 30: Column_name, lines 5595-5619 *)
  (60, [Match 314 73]);
  (* 31: Column_name_list, lines 5737-5787 *)
  (62, [Call 316 30 0;
    Sync 321;
    For (LaIs 7) [Match 317 7; Call 318 30 0; Sync 323]]);
  (* 32: Index_name, lines 5857-5881 *)
  (64, [Match 324 74]);
  (* 33: Annotation_target_name, lines 5951-5975 *)
  (66, [Match 326 76]);
  (* 34: Annotation_attr_name, lines 6045-6069 *)
  (68, [Match 328 73]);
  (* 35: Annotation_attr_value, lines 6151-6171 *)
  (70, [Call 330 13 0]);
  (* 36: Ext_config_value, lines 6253-6273 *)
  (72, [Call 332 13 0]);
  (* 37: Init_decl, lines 6380-6440 *)
  (74, [Match 334 36;
    Match 335 3;
    Match 336 5;
    Match 337 4;
    Call 338 38 0;
    Match 339 6]);
  (* 38: Action_stmt_list, lines 6548-6586 *)
  (76, [Sync 342;
    Do (LaMask 73 133) [Call 341 39 0; Sync 344]]);
  (* 39: Action_stmt, lines 6685-6725 *)
  (78, [Sync 348;
    Switch [([80], [Call 346 40 0]); ([73; 75], [Call 347 41 0])] true]);
  (* 40: Sql_stmt, lines 6800-6832 *)
  (80, [Match 350 80;
    Match 351 2]);
  (* 41: Call_stmt, lines 6941-6993 *)
  (82, [Sync 356;
    If (LaIs 75) [Call 353 42 0; Match 354 12];
    Call 358 43 0;
    Match 359 2]);
  (* 42: Call_receivers, lines 7111-7161 *)
  (84, [Call 361 44 0;
    Sync 366;
    For (LaIs 7) [Match 362 7; Call 363 44 0; Sync 368]]);
  (* 43: Call_body, lines 7270-7310 *)
  (86, [Call 369 47 0;
    Match 370 3;
    Call 371 49 0;
    Match 372 5]);
  (* 44: Variable, lines 7380-7404 *)
  (88, [Match 374 75]);
  (* 45: Block_var, lines 7474-7498 *)
  (90, [Match 376 76]);
  (* 46: Extension_call_name, lines 7578-7618 *)
  (92, [Match 378 73;
    Match 379 11;
    Match 380 73]);
  (* 47: Fn_name, lines 7717-7756 *)
  (94, [Sync 384;
    Choose 24 [(1, [Call 382 46 0]); (2, [Call 383 29 0])]]);
  (* 48: Sfn_name, lines 7826-7850 *)
  (96, [Match 386 73]);
  (* 49: Fn_arg_list, lines 7968-8028 *)
  (98, [Sync 389;
    If (LaOr (LaMask 0 286728) (LaMask 70 489)) [Call 388 50 0];
    Sync 395;
    For (LaIs 7) [Match 391 7; Call 392 50 0; Sync 397]]);
  (* 50: fn_arg_expr, lines 8360-8782 *)
  (100, [Sync 425;
    Switch [([77; 78], [Call 399 13 0]); ([75], [Call 400 44 0]); ([76], [Call 401 45 0]); ([3], [Match 402 3; Call 403 50 0; Match 404 5]); ([13; 14; 18], [MatchSet 406 (LaMask 0 286720); Call 407 50 11]); ([70], [Match 408 70; Call 409 50 4]); ([73], [Call 410 48 0; Match 411 3; Sync 421; Switch [([3; 13; 14; 18; 70; 73; 75; 76; 77; 78], [Call 412 50 0; Sync 417; For (LaIs 7) [Match 413 7; Call 414 50 0; Sync 419]]); ([15], [Match 420 15]); ([5], [])] false; Match 423 5])] true;
    Sync 453;
    Loop 31 2 [Sync 451; Choose 30 [(1, [Prec 427 10; Match 428 19; Call 429 50 11]); (2, [Prec 430 9; MatchSet 431 (LaMask 0 229376); Call 432 50 10]); (3, [Prec 433 8; MatchSet 434 (LaOr (LaIs 13) (LaIs 14)); Call 435 50 9]); (4, [Prec 436 7; MatchSet 437 (LaMask 0 15728640); Call 438 50 8]); (5, [Prec 439 6; MatchSet 440 (LaMask 0 503316480); Call 441 50 7]); (6, [Prec 442 5; MatchSet 443 (LaMask 0 1627394048); Call 444 50 6]); (7, [Prec 445 3; Match 446 71; Call 447 50 4]); (8, [Prec 448 2; Match 449 72; Call 450 50 3])]] [Sync 455]])
].
