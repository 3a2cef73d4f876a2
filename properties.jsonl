{"id": "C01", "title": "Parsing is total", "statement": "ParsePath, ParseScriptExpression and Compile (parsing part) stop on every input and return either a tree or an error; no input makes them panic or loop.", "quantifier": "every byte string, including invalid UTF-8, unterminated literals and arbitrarily deep nesting", "why_tests_cant": "the input space is infinite and the parser has explicit panic() calls, a one-token push-back and mutually recursive procedures whose termination depends on every path consuming input", "anchors": ["paths/parsepath.go:ParsePath,parsePath,parseSubscript", "paths/parseexpr.go:ParseScriptExpression,expr,primary", "paths/lex.go:unget", "jsonpath.go:Compile"]}
{"id": "C02", "title": "The path parser accepts exactly the documented path grammar", "statement": "ParsePath(s) succeeds with path P if and only if s derives P in the documented grammar (syntax/doc.go), with white space allowed between tokens; every other text is an error.", "quantifier": "every byte string s and every path tree P", "why_tests_cant": "acceptance and rejection are both infinite sets; a table of samples cannot show there is no wrongly accepted or wrongly rejected text", "anchors": ["paths/parsepath.go:parsePath,parseBrackets,parseSubscript,parseValList,parseVal,parseSlice,parseSliceVal,parseMember", "syntax/doc.go"]}
{"id": "C03", "title": "Script expressions parse by the documented grammar, precedence and left associativity", "statement": "A script expression parses to tree E iff it derives E in the layered expression grammar in which || < && < (== !=) < (< <= > >= ~ =~ in nin) < (+ -) < (* / %) < unary < postfix and every binary operator groups to the left.", "quantifier": "every byte string and every expression tree", "why_tests_cant": "grouping has to be right for every nesting of operators, operands and postfix forms", "anchors": ["paths/parseexpr.go:expr,unary,primary,application,parseExprList,primary1,tok2op", "paths/ops.go:precedence,associativity"]}
{"id": "C04", "title": "Every well-formed path can be written down and is read back unchanged", "statement": "For every well-formed path tree there is a text (a canonical printing) that ParsePath maps back to exactly that tree; likewise for expressions with ParseScriptExpression.", "quantifier": "every well-formed path tree / expression tree of any size", "why_tests_cant": "round-trip must hold for all trees, not just printed samples", "anchors": ["paths/parsepath.go:ParsePath", "paths/parseexpr.go:ParseScriptExpression", "paths/path.go:Path,Step", "paths/expr.go"]}
{"id": "C05", "title": "Quoted keys can name any member", "statement": "For every byte string k there is a quoted literal, in either quote style, which the lexer decodes to exactly k, so ['...'] can address any member of any object.", "quantifier": "every byte string k (control characters, quotes, backslashes, non-ASCII) and both quote characters", "why_tests_cant": "every string over 256 byte values must round-trip", "anchors": ["paths/lex.go:lexString,escaped"]}
{"id": "C06", "title": "\\u escapes follow JSON's rules", "statement": "In a quoted literal a \\uXXXX escape outside the surrogate range yields the UTF-8 form of that code point, a high/low surrogate pair yields the UTF-8 form of the combined code point, and a surrogate without partner yields U+FFFD without disturbing what follows.", "quantifier": "every 16-bit escape value and every pair, in any context", "why_tests_cant": "65536 single escapes and 2^32 pairs, in any surrounding text", "anchors": ["paths/lex.go:lexString,escaped"]}
{"id": "C07", "title": "Unclosed string literals are rejected", "statement": "A path or script expression that ends inside a string literal is an error.", "quantifier": "every text whose last string literal has no closing quote", "why_tests_cant": "unterminated text can end at any point, including inside an escape sequence", "anchors": ["paths/lex.go:lexString", "paths/rd.go:get,unget", "paths/parseexpr.go:ParseScriptExpression"]}
{"id": "C08", "title": "Integer literals denote their decimal value or are rejected", "statement": "An unsigned decimal literal denotes its mathematical value if that is below 2^63 and is an error otherwise; in a path a '-' sign (optionally followed by space) negates it, and the most negative magnitudes that the implementation cannot represent are errors, never wrong values.", "quantifier": "every digit string of any length, with or without sign", "why_tests_cant": "values near and beyond the 64-bit boundary, any number of leading zeros", "anchors": ["paths/lex.go:lexNumber", "paths/lexpath.go:lexPath"]}
{"id": "C09", "title": "Parsed paths are structurally sound", "statement": "Every path returned by ParsePath uses only path operators with the right operands: union lists have at least two elements and contain neither wildcards, filters nor script subscripts; '.' selections carry a name; calls carry a function name; every operator has its arity.", "quantifier": "every successful parse", "why_tests_cant": "must hold for all accepted texts", "anchors": ["paths/parsepath.go:parseSubscript", "paths/parseexpr.go:primary,application"]}
{"id": "C10", "title": "Instruction encoding is lossless", "statement": "Packing an operator with a signed operand, or with a constant index, into a 32-bit order and unpacking it gives back the same operator, kind and operand.", "quantifier": "every operator, every signed value in [-2^22, 2^22), every index below 2^22", "why_tests_cant": "about 400 million operator/operand pairs", "anchors": ["mach/program.go:mkOrder,mkSmall,op,index,smallInt,isSmallInt,pc"]}
{"id": "C11", "title": "Each instruction refers to its own constant", "statement": "In a compiled program every constant instruction, executed, pushes exactly the constant written in the path, and no two table entries hold the same comparable constant.", "quantifier": "every path and every constant in it, whatever constants were interned before", "why_tests_cant": "sharing of equal constants depends on the entire prefix of the program", "anchors": ["mach/coder.go:codeOp,mkVal,codeLeaf", "mach/program.go:data,value"]}
{"id": "C12", "title": "Compile rejects what it cannot encode", "statement": "If Compile succeeds then every operand count and branch target in the program is encoded faithfully; paths too large to encode give an error.", "quantifier": "every path, including those with millions of elements", "why_tests_cant": "needs paths with more than four million elements", "anchors": ["mach/coder.go:Compile,codeLoop,codeStep,mkVal", "mach/program.go:mkSmall"]}
{"id": "C13", "title": "Compiled programs mean what the path says", "statement": "Running the compiled program on a document gives exactly the result (values in order, or error) of the path's step-by-step meaning: each step applied to the previous selection, each filter evaluated on each candidate.", "quantifier": "every well-formed path within the encoding limits, every document, every map iteration order", "why_tests_cant": "compiler correctness over all programs: jumps, loops, operand order, constant indices", "anchors": ["mach/coder.go:Compile,codeLoop,codeStep,codeExpr", "mach/run.go:Run"]}
{"id": "C14", "title": "Eval never panics", "statement": "Evaluating a successfully compiled path on a JSON document returns values or an error; it never panics.", "quantifier": "every text accepted by Compile and every document", "why_tests_cant": "panics can hide in index arithmetic, type assertions, stack handling and branches for unusual combinations", "anchors": ["mach/run.go:Run,valsByKey,sliceEval,pop,popN,branch"]}
{"id": "C15", "title": "Eval terminates", "statement": "Evaluating a compiled path on a finite document always stops, after a number of machine steps bounded by the program size times one plus the total number of values iterated.", "quantifier": "every compiled path and document", "why_tests_cant": "the machine has backward branches; non-termination cannot be observed by testing", "anchors": ["mach/run.go:Run,looptop"]}
{"id": "C16", "title": "Stack discipline", "statement": "While a compiled program runs, the expression stack never underflows, every path step starts and ends with an empty stack, and when the program ends nothing is left on the stack or on the iteration stack.", "quantifier": "every compiled program, every document, every intermediate machine state", "why_tests_cant": "needs an invariant over all intermediate states", "anchors": ["mach/run.go:push,pop,popN,pushInput,popInput"]}
{"id": "C17", "title": "Every selected value comes from the document", "statement": "Each value in a result list is the document itself or one of its (transitive) members or elements.", "quantifier": "every path and document", "why_tests_cant": "'nothing invented' must hold for all combinations of steps", "anchors": ["mach/run.go:Run,valsByKey,valsWild,stepping,walkdown"]}
{"id": "C18", "title": "Internal markers never reach the caller", "statement": "No result value is or contains an error/'nothing' marker, a name, a slice descriptor or a compiled regular expression.", "quantifier": "every path and every document", "why_tests_cant": "markers flow through every operator of the expression machine", "anchors": ["mach/run.go:Run,isNothing"]}
{"id": "C19", "title": "Success and failure are exclusive", "statement": "A successful Eval returns a non-nil (possibly empty) slice and nil error; a failing one returns a nil slice and an error.", "quantifier": "every program and document", "why_tests_cant": "must hold on all control paths, in particular when an intermediate selection became a nil slice", "anchors": ["mach/run.go:Run,valsByKey"]}
{"id": "C20", "title": "Member selection", "statement": "'.name' and ['name'] select, from each candidate object that has the member, exactly that member's value, in candidate order, and nothing from anything else.", "quantifier": "every key, every candidate list and document", "why_tests_cant": "all key/document combinations", "anchors": ["mach/run.go:valsByKey,valByKey,mapKey", "paths/parsepath.go:parseMember"]}
{"id": "C21", "title": "Array index selection", "statement": "[n] selects element n of each candidate array, counting from the end if n is negative, and nothing if out of range; '.n' does not count from the end; applied to an object an integer selects the member whose name is its decimal form.", "quantifier": "every 64-bit index, every array length and object", "why_tests_cant": "off-by-one boundaries for every length and sign", "anchors": ["mach/run.go:valsByKey,valByKey"]}
{"id": "C22", "title": "Wildcard selection", "statement": "'*' selects all elements of each candidate array in order and all member values of each candidate object in some order, each exactly once, and nothing from scalars.", "quantifier": "every candidate list and every map iteration order", "why_tests_cant": "map order is random per run; tests see one order", "anchors": ["mach/run.go:valsWild,applySelection"]}
{"id": "C23", "title": "Slices follow the start:end:stride rule", "statement": "[a:b:c] on an array selects precisely the elements at positions a, a+c, a+2c, ... before b (after b when c is negative), with negative a and b counted from the end, both clipped to the array, missing bounds taking their defaults and stride 0 selecting nothing.", "quantifier": "every start, end, stride in the literal range or missing, and every array length", "why_tests_cant": "unbounded combinations of boundary cases", "anchors": ["mach/run.go:sliceEval,valsByKey"]}
{"id": "C24", "title": "A selector treats candidates independently", "statement": "The selection from several candidates is the concatenation, in order, of the selections from each one alone; a candidate a selector does not apply to contributes nothing and does not affect the others.", "quantifier": "every selector and every list of candidates", "why_tests_cant": "depends on the mix of candidate types in the document", "anchors": ["mach/run.go:applySelection,valsByKey"]}
{"id": "C25", "title": "Union is the ordered concatenation of its elements", "statement": "[e1,...,en] selects from each candidate what e1 selects, then what e2 selects, and so on, keeping duplicates.", "quantifier": "every list of union elements and every candidate", "why_tests_cant": "arbitrary mixes of names, indices and slices over arbitrary candidates", "anchors": ["mach/run.go:Run (OpUnion)", "mach/run.go:valsByKey"]}
{"id": "C26", "title": "A filter keeps exactly the children that satisfy it", "statement": "[?(e)] selects, from all elements/members of the candidates in order, exactly those for which e evaluates to a truthy value with @ bound to it.", "quantifier": "every expression and every candidate list, including empty containers and scalars", "why_tests_cant": "depends on the number and kind of children of each candidate", "anchors": ["mach/run.go:Run (OpFor,OpFilter,OpRep),looptop,stepping", "mach/coder.go:codeLoop"]}
{"id": "C27", "title": "Recursive descent visits every container exactly once, parents first", "statement": "'..' steps apply their selector to the candidate and to every array/object nested in it, each occurrence exactly once, each container before the containers inside it.", "quantifier": "every document shape and depth", "why_tests_cant": "unbounded nesting; unordered maps", "anchors": ["mach/run.go:walker,walkdown,looptop"]}
{"id": "C28", "title": "Scope of $ and @", "statement": "In an expression $ is always the document; @ is the current candidate inside a filter or '..' step and null in any other script subscript, even after an earlier filter; a plain script subscript is evaluated once, not per candidate.", "quantifier": "every path with expressions, every position", "why_tests_cant": "depends on machine state left by all earlier steps", "anchors": ["mach/run.go:Run (OpRoot,OpCurrent,OpRep)"]}
{"id": "C29", "title": "Map iteration order affects only the order of results", "statement": "For paths without slices and without keys(), two evaluations of the same path on the same document either both fail or return the same values up to reordering; if the document contains no object with two members, the results are identical.", "quantifier": "every path, document and every pair of map iteration orders (schedules)", "why_tests_cant": "Go randomises map order per iteration; no test enumerates the orders", "anchors": ["mach/run.go:valsWild,stepping,walkdown", "mach/fns.go:keys"]}
{"id": "C30", "title": "Integer arithmetic is 64-bit two's complement", "statement": "+, - and * on integers/booleans give the exact result reduced modulo 2^64 into the signed range; if either operand is floating-point the operation is the IEEE double one; any other operand type yields failure, not an error.", "quantifier": "all operand values and types", "why_tests_cant": "2^128 operand pairs and all type pairs", "anchors": ["mach/run.go:arith,Run (OpAdd,OpSub,OpMul,OpNeg)", "mach/json.go:cvi,cvf,isArith"]}
{"id": "C31", "title": "Division and remainder", "statement": "Integer / truncates toward zero and % has the dividend's sign; division or remainder by zero (integer or floating) yields failure, never a panic; the most negative integer divided by -1 wraps.", "quantifier": "all operand values and types", "why_tests_cant": "boundary cases of 64-bit division for all values", "anchors": ["mach/run.go:divide,Run (OpDiv,OpMod)"]}
{"id": "C32", "title": "Failure propagates through strict operators", "statement": "If any operand of an arithmetic, relational, index, member, match or membership operator is a failure, the result is a failure and evaluation continues.", "quantifier": "every operator and every operand value", "why_tests_cant": "all operator/value combinations, at any depth of the expression", "anchors": ["mach/run.go:valOK,valsOK,arith,divide,relation"]}
{"id": "C33", "title": "&&, || and ! behave as in JavaScript", "statement": "a || b is a if a is truthy, else b; a && b is a if a is falsy (or failed), else b; !a is the Boolean complement of a's truthiness; falsy values are exactly null, failure, false, 0, -0, NaN and the empty string.", "quantifier": "all operand values", "why_tests_cant": "all value types including NaN and signed zero", "anchors": ["mach/run.go:Run (OpOr,OpAnd,OpNot)", "mach/json.go:cvb"]}
{"id": "C34", "title": "Comparison operators", "statement": "On two strings <, <=, >, >= are the byte-wise lexicographic order; on two numbers/booleans the numeric order; string against non-string, or any null/array/object operand, is false; exactly one of <, ==, > holds for two strings and for two integers, and <= is the negation of > on them.", "quantifier": "all pairs of values", "why_tests_cant": "order laws over all values", "anchors": ["mach/run.go:relation", "mach/json.go:isSimple"]}
{"id": "C35", "title": "Equality is reflexive", "statement": "v == v is true for every JSON document value (no NaN).", "quantifier": "every document value, any depth", "why_tests_cant": "all documents", "anchors": ["mach/json.go:eqVal,eqNum"]}
{"id": "C36", "title": "Equality is symmetric", "statement": "a == b gives the same answer as b == a.", "quantifier": "all pairs of values", "why_tests_cant": "structured values of any depth; tests pair only a few literals", "anchors": ["mach/json.go:eqVal"]}
{"id": "C37", "title": "Equality follows the ECMA-262 11.9.3 rules", "statement": "a == b gives the value of the Abstract Equality Comparison (with arrays/objects compared by value); != is always its negation.", "quantifier": "all pairs of values of all types", "why_tests_cant": "all type pairs and all values, including string/number conversions", "anchors": ["mach/json.go:eqVal,eqNum,eqArrayS,eqArrayN,badNum"]}
{"id": "C38", "title": "Membership", "statement": "x in a is true iff some element of a equals x (==), nin is its negation, for arrays; any other right operand is a run-time error.", "quantifier": "every array and value", "why_tests_cant": "arrays of any length", "anchors": ["mach/json.go:searchJSON", "mach/run.go:Run (OpIn,OpNin)"]}
{"id": "C39", "title": "Match operator", "statement": "s =~ re is the regexp's verdict for string s; the right operand must be a regexp literal or a string that compiles; non-string left operands, other right operands and invalid dynamic patterns are run-time errors; failures on either side yield failure.", "quantifier": "all operand values and patterns", "why_tests_cant": "all operand type combinations", "anchors": ["mach/run.go:Run (OpMatch)"]}
{"id": "C40", "title": "Only documented run-time errors occur", "statement": "Eval returns an error only because of: call of an unknown function, a wrong argument count, an invalid dynamic pattern, or wrong operand types for =~, in or nin; a path using none of these never fails.", "quantifier": "every path and document", "why_tests_cant": "absence of errors over all paths", "anchors": ["mach/run.go:Run,call"]}
{"id": "C41", "title": "String predicates", "statement": "starts_with/ends_with/contains on strings are true iff the second string is a prefix/suffix/substring of the first; non-strings yield failure.", "quantifier": "all argument values", "why_tests_cant": "all strings", "anchors": ["mach/fns.go:starts_with,ends_with,contains,stringArgs"]}
{"id": "C42", "title": "min and max", "statement": "max of a non-empty list of numbers (strings) is an element of the list that is >= every other; min is an element <= every other.", "quantifier": "every non-empty list of numbers or of strings", "why_tests_cant": "lists of any length and content", "anchors": ["mach/fns.go:max,min,minMaxArray,maxArith,minArith,maxString,minString"]}
{"id": "C43", "title": "sum, prod and avg", "statement": "sum/prod/avg of an array fold IEEE addition/multiplication from the left over its elements' numeric values (avg dividing by the length); sum of [] is 0, prod of [] is null; any non-numeric element yields failure.", "quantifier": "arrays of any length and content", "why_tests_cant": "all arrays", "anchors": ["mach/fns.go:sum,prod,avg,arithArrayOp"]}
{"id": "C44", "title": "length", "statement": "length(x) and x.length are the number of code points of a string, elements of an array, members of an object; for other values length(x) is null and x.length fails.", "quantifier": "all values, all strings (also invalid UTF-8)", "why_tests_cant": "all strings", "anchors": ["mach/fns.go:length", "mach/run.go:Run (OpDot)"]}
{"id": "C45", "title": "abs, ceil, floor, to_number", "statement": "abs is the absolute value with overflow reported as failure; ceil/floor are the least/greatest integer bounds and leave integers unchanged; to_number converts numeric strings and fails otherwise.", "quantifier": "all numbers and strings", "why_tests_cant": "all 2^64 integers and all doubles", "anchors": ["mach/fns.go:abs,ceil,floor,to_number"]}
{"id": "C46", "title": "Function calls are checked", "statement": "Calling an unknown name, or a known function with the wrong number of arguments, is a run-time error naming it; otherwise the function's value is used and evaluation continues even if the function itself fails.", "quantifier": "all names and argument lists", "why_tests_cant": "all names and counts", "anchors": ["mach/run.go:call", "mach/fns.go:functions"]}
{"id": "C47", "title": "The iteration channel delivers the right sequence under every schedule", "statement": "Whatever the goroutine scheduling between producer and machine, a filter or '..' loop sees exactly the values of the walk, in order, then end-of-stream, and the evaluation result is that of the sequential machine.", "quantifier": "every interleaving of producer and consumer steps, every document", "why_tests_cant": "schedules cannot be enumerated by tests", "anchors": ["mach/run.go:looptop,stepping,walker,walkdown,Run (OpRep)"]}
{"id": "C48", "title": "No goroutine outlives Eval", "statement": "When Eval returns (values or error), the producer goroutines it started have finished or can finish.", "quantifier": "every path, document and schedule", "why_tests_cant": "leaks are invisible to functional tests", "anchors": ["mach/run.go:looptop,Run"]}
{"id": "C49", "title": "Concurrent evaluations do not interfere", "statement": "Any number of Evals of one compiled path, on the same or different documents, interleaved in any way, each return what they would return alone.", "quantifier": "every number of evaluations and every interleaving", "why_tests_cant": "interleavings cannot be enumerated", "anchors": ["jsonpath.go:Eval", "mach/run.go:Run", "mach/program.go:Program"]}
{"id": "C50", "title": "Eval does not modify the document or the program", "statement": "No evaluation step writes to the arrays or maps of the document, to the compiled program or to a previously returned result; appends only ever touch storage allocated by the same evaluation.", "quantifier": "every path, document and history of earlier evaluations", "why_tests_cant": "aliasing depends on slice capacities and history", "anchors": ["mach/run.go:valsByKey,valsWild,applySelection,slicing"]}
{"id": "C51", "title": "MustCompile and String", "statement": "MustCompile panics exactly when Compile returns an error and otherwise returns the same compiled path; String returns the source text.", "quantifier": "every text", "why_tests_cant": "all texts", "anchors": ["jsonpath.go:MustCompile,Compile,String"]}
{"id": "C52", "title": "jpath processes its input value by value", "statement": "jpath writes one result list per input document, in order, evaluated independently, and stops at the first undecodable document or failing evaluation after having written all earlier results; with -l the k-th output line answers the k-th input line.", "quantifier": "every sequence of documents", "why_tests_cant": "input streams of any length", "anchors": ["cmd/jpath/jpath.go:readValues,readLines"]}
{"id": "C53", "title": "Composition of steps", "statement": "The result of a path P followed by steps Q is the result of running Q's steps, with the same $, on the selection made by P; an empty selection stays empty.", "quantifier": "every split of every path, every document", "why_tests_cant": "all paths", "anchors": ["mach/run.go:Run", "mach/coder.go:Compile"]}
{"id": "C54", "title": "Script subscripts", "statement": "(e) as a subscript selects with the value of e: an integer acts as index, a string as member name, and a failure selects nothing; slice bounds written as (e) act as the value of e.", "quantifier": "every expression and document", "why_tests_cant": "all expression values", "anchors": ["mach/run.go:Run (OpMember,OpSelect),sliceEval,mapKey", "paths/parsepath.go:parseSlice"]}
{"id": "C55", "title": "keys and tokenize", "statement": "keys(o) lists each member name of an object exactly once, in the order of a range over the map, and fails for anything else; tokenize(s, re) is the list of the regexp's pieces of s, and fails if re does not compile or an argument is not a string.", "quantifier": "every object, every pair of values, every iteration order", "why_tests_cant": "all objects and iteration orders", "anchors": ["mach/fns.go:keys,tokenize", "mach/run.go:call"]}
{"id": "C56", "title": "Member access, indexing, minus and array literals in expressions", "statement": "In an expression a.k is the member k of an object, a[i] the element of an array at the integer i converts to (negative from the end) or the member of an object that i names, otherwise a failure; -a negates a float or the integer a converts to, modulo 2^64; [..] is the array of its values.", "quantifier": "every operand value, every machine state", "why_tests_cant": "operands range over all values and conversions", "anchors": ["mach/run.go:Run (OpDot, OpIndex, OpNeg, OpArray)", "mach/json.go:cvi"]}
{"id": "C57", "title": "Expressions give well-formed values", "statement": "Whatever an expression evaluates to, the floats in it are binary64 numbers, the objects in it are objects of the document, and no compiler-internal slice value occurs in it.", "quantifier": "every expression, document and current value", "why_tests_cant": "all values of all expressions", "anchors": ["mach/run.go:Run", "mach/fns.go", "mach/json.go"]}
{"id": "C58", "title": "Operators that occur in programs", "statement": "The orders of compiled paths have every operator of paths/ops.go except OpError, OpExp and OpSlice, which never occur; each other operator does.", "quantifier": "every accepted path text", "why_tests_cant": "absence over all texts", "anchors": ["mach/coder.go:Compile", "paths/ops.go:Op", "mach/run.go:Run"]}
{"id": "C59", "title": "The operators OpSlice and OpExp", "statement": "OpSlice of an array by a slice gives the elements that the slice selects in a path, and an empty array if an operand has another type; it panics exactly if positions overflow or the stride is 1 and the start lies after the end. OpExp leaves strings and integers as they are and converts other values to integers.", "quantifier": "every operand value, every machine state", "why_tests_cant": "no path reaches these operators, and operands range over all values", "anchors": ["mach/run.go:Run (OpSlice, OpExp)", "mach/run.go:slicing", "mach/run.go:sliceEval"]}
{"id": "C60", "title": "Syntax errors say what is so", "statement": "If a path or script expression is refused, what the error says holds of the text: the character, token, number, escape or regular expression it names occurs there, at the offset it gives; the token it says was expected is not there; a string or regular expression it calls unclosed is; a number it refuses is out of range. The offset is that of a byte of the text (0 for the empty text).", "quantifier": "every byte string that is refused", "why_tests_cant": "all wrong texts; a test sees single messages", "anchors": ["paths/lex.go:tokenErr", "paths/lexpath.go:lexPath", "paths/lexexpr.go:lexExpr", "paths/parser.go", "paths/parsepath.go:ParsePath", "paths/parseexpr.go:ParseScriptExpression", "paths/rd.go:offset"]}
{"id": "C61", "title": "Errors depend only on the text before them", "statement": "If a text is refused with an error at an offset, any other text that is the same up to the byte after the offset, or is the same text if the text ends there, is refused with the same error.", "quantifier": "every byte string that is refused with an offset, every continuation", "why_tests_cant": "all continuations of all texts", "anchors": ["paths/rd.go:get", "paths/rd.go:unget", "paths/rd.go:offset", "paths/lexpath.go:lexPath", "paths/lexexpr.go:lexExpr", "paths/parser.go", "paths/parsepath.go:ParsePath", "paths/parseexpr.go:ParseScriptExpression"]}
{"id": "C62", "title": "Only the tokens matter", "statement": "Two texts with the same tokens (whatever the white space between them, the quotes and escapes of their strings, the digits of their numbers and the escapes of their regular expressions) parse to the same path or script expression, or are both refused, and compile to the same program; in particular white space may be put between any two tokens of an accepted text.", "quantifier": "every pair of byte strings with the same tokens; every accepted text, every token boundary, every run of white space", "why_tests_cant": "all pairs of texts, all boundaries", "anchors": ["paths/lex.go:ws", "paths/lexpath.go:lexPath", "paths/lexexpr.go:lexExpr", "paths/lex.go:lexString", "paths/lex.go:lexNumber", "paths/parsepath.go:ParsePath", "paths/parseexpr.go:ParseScriptExpression", "mach/coder.go:Compile"]}
{"id": "C63", "title": "Notations for a step are interchangeable", "statement": "Paths whose steps differ only in notation give the same results in the same order, or the same error: a member name after a dot, in brackets, quoted or parenthesised; an index in brackets or parenthesised, or after a dot if not negative; a slice with its default start or stride written out; each also after '..' and within a union.", "quantifier": "every pair of accepted paths that differ only in notation, every document, every order of map iteration", "why_tests_cant": "all paths, all documents, all orders", "anchors": ["paths/parsepath.go:parseMember", "paths/parsepath.go:parseSubscript", "paths/parsepath.go:parseSlice", "mach/coder.go:Compile", "mach/run.go"]}
{"id": "C64", "title": "The text of a compiled path lists its constants and instructions", "statement": "Program.String of a compiled path never panics; it is one word for each table constant, in order of first use, and then one word for each instruction of the path's code: kind and value of a constant that fits in an order, kind and table index of one that does not (one index for equal numbers, strings or names), operator and operand count or branch target, all separated by single spaces.", "quantifier": "every accepted path; every formatting of quoted strings and floats", "why_tests_cant": "all paths", "anchors": ["mach/text.go:String", "mach/text.go:trimOp", "paths/ops.go:GoString", "paths/val.go:String", "paths/expr.go:String", "mach/coder.go:Compile"]}
{"id": "C65", "title": "The text of an arbitrary program", "statement": "Program.String panics exactly for programs with an order whose operation field holds the number of no operator.  It does not determine the program: two accepted paths that select differently can have the same text.", "quantifier": "every program, compiled or not", "why_tests_cant": "all sequences of orders", "anchors": ["mach/text.go:String", "mach/text.go:trimOp", "paths/val.go:String", "paths/expr.go:String"]}
{"id": "C66", "title": "jpath's exit status", "statement": "jpath's exit status is 0 exactly if the path is accepted, every input opens and is a sequence of documents up to its end, and every document evaluates to results that can be encoded; it is 2 if there is no path, or if an evaluation panics, and 1 otherwise.", "quantifier": "every command line and every contents of the files", "why_tests_cant": "the inputs, their number and the place of the first problem are unbounded", "anchors": ["cmd/jpath/jpath.go:main,readValues,readLines,errorf"]}
{"id": "C67", "title": "Error messages tell errors apart", "statement": "Two texts whose parses fail with the same error message have the same error: the same kind, offset, tokens, values and nested error; only the pattern of an invalid regular expression may differ. The same holds of Compile. Evaluations that fail with the same message have the same run-time error: the same operator or function and counts; only the printed value or pattern may differ.", "quantifier": "every pair of byte strings, as paths or as scripts; every regular-expression error text that starts as package regexp's do; every formatting of floats that tells apart the floats of literals; every pair of failing evaluations on documents", "why_tests_cant": "it compares all pairs of failing texts", "anchors": ["paths/lex.go:String,lexErr,isNext,tokenErr", "paths/tokens.go:String", "paths/ops.go:String", "paths/parser.go:expect", "paths/parsepath.go", "paths/parseexpr.go", "paths/rd.go:String", "mach/run.go:Run"]}
{"id": "C68", "title": "What equality is, in full", "statement": "a == b is true exactly by these rules: null and failures equal each other; numbers are equal as integers if both are integers and otherwise as doubles; a number and a text are equal if the text is a numeral whose double, beside a float, or integer (0 if it is none), beside an integer, is the number's; a Boolean is 0 or 1 beside a number or text; an array beside a Boolean, number or text stands for 0 or the empty text if empty and for its element if it has one; arrays are equal element by element; objects are equal if they have as many members and each member of the left equals the right's of that name, a missing one counting as null; nothing else is equal. != is the negation.", "quantifier": "every pair of values, documents or not, and every behaviour of strconv", "why_tests_cant": "the pairs of values are unbounded in number and depth", "anchors": ["mach/json.go:eqVal,eqNum,eqArrayS,eqArrayN,badNum,cvs,cvi,cvf,typeOf"]}
{"id": "C69", "title": "int and int64 are interchangeable in documents", "statement": "If two documents differ only in which of their integers are of type int and which of type int64, evaluating any compiled path on the one has the same outcome as on the other: the same values up to those types, the same failure, or the same panic.", "quantifier": "every compiled path, every pair of documents at any depth, every iteration order and behaviour of the libraries whose fmt.Sprint prints the two types alike", "why_tests_cant": "which integers are of which type is unbounded in number, and each operator and function decides on the types separately", "anchors": ["mach/fns.go:functions", "mach/run.go:Run", "mach/json.go:cvi,cvf,cvs,eqVal,typeOf"]}
{"id": "C70", "title": "The listing of an object's members carries no meaning", "statement": "If two documents differ only in the order in which the members of their objects are listed, whatever evaluating a path on the one can give - values in order, failure or panic - evaluating it on the other can give too, for some order of iteration over maps: a document is its maps, not a listing of them.", "quantifier": "every path text that compiles, every pair of documents at any depth, every iteration order and behaviour of the libraries whose fmt.Sprint prints equal maps alike", "why_tests_cant": "documents and listings are unbounded, and Go's iteration order is random", "anchors": ["mach/run.go:Run,stepping,walkdown,valByKey,valsWild", "mach/json.go:eqVal", "mach/fns.go:functions"]}
{"id": "C71", "title": "jpath's messages", "statement": "jpath writes to its standard error exactly if its exit status is not 0. With -l its message has the number of the first input line without an output line; with files it names the first file that is not answered to its end. Two runs of one command with the same message have the same reason: file, position and kind of error - provided that no file name has a colon, without which this is refuted.", "quantifier": "every path text that compiles, every list of files, contents and read errors, every behaviour of encoding/json that advances, every iteration order", "why_tests_cant": "inputs, files and the places where they break are unbounded, and the last statement compares all pairs of runs", "anchors": ["cmd/jpath/jpath.go:main,readValues,readLines,errorf"]}
{"id": "C72", "title": "Paths without expressions select by shape alone", "statement": "On two documents with the same arrays, objects and keys, a path without filters and script expressions selects the same places in the same order, whatever the scalars in them are; it never gives an error. Replacing the scalars of a document replaces those of the results.", "quantifier": "every accepted path without filters and script expressions, every pair of documents of the same shape, every relation between their scalars, every iteration order", "why_tests_cant": "compares all pairs of documents", "anchors": ["mach/run.go:applySelection,valsByKey,valsWild,looptop,stepping,walker"]}
{"id": "C73", "title": "Filters obey the laws of logic", "statement": "[?(e)] and [?(!e)] share out what [?(true)] gives between them, keeping its order, or both give the same error. If [?(a)] and [?(b)] give no error, [?(a && b)] keeps exactly what both keep and [?(a || b)] what either keeps. The same holds of ..[?( )].", "quantifier": "every sequence of steps before the filter, every expression (without keys() for && and ||), every document, every iteration order", "why_tests_cant": "relates the results of different paths for all expressions and documents", "anchors": ["mach/run.go:exec (OpFilter, OpNestFilter, OpNot, OpAnd, OpOr),looptop,cvb"]}
{"id": "C74", "title": "Laws of slices", "statement": "On an array, [a:b] gives the elements between the places a and b stand for; [a:b] followed by [b:c] is [a:c] if b is not before a or after c; [i:i+1] is [i] unless i is -1; [::-1] reverses the array; the k-th result of [::c] is the element k*c.", "quantifier": "every array, all bounds and strides of the int64 range", "why_tests_cant": "bounds and lengths are unbounded, and the laws relate the results of different paths", "anchors": ["mach/run.go:sliceEval,valsByKey"]}
{"id": "C75", "title": "Paths of members, subscripts and unions are deterministic", "statement": "A path of members, subscripts and unions only, that does not call keys(), has the same outcome whatever the order of iteration over maps.", "quantifier": "every accepted path of that kind, every document, every pair of iteration orders", "why_tests_cant": "Go's map iteration order is random: tests see some orders only", "anchors": ["mach/run.go:valByKey,valsByKey,unionVals", "mach/fns.go:keys"]}
{"id": "C76", "title": "Reports of paths that do not compile name them", "statement": "The text MustCompile panics with, and the message jpath writes when its path does not compile, determine the path: two paths with the same report are the same path, whatever the file, the flags and the reason for the failure.", "quantifier": "every pair of paths that do not compile, every quoting that is a prefix code starting with a double quote, every regexp library and number reader", "why_tests_cant": "a quoting mistake that confuses two paths shows only on particular pairs of paths, with quotes or backquotes inside", "anchors": ["jsonpath.go:MustCompile,quote", "cmd/jpath/jpath.go:main,quote,errorf"]}
{"id": "C77", "title": "Output reaches stdout in order, in blocks, and up to the first failing write", "statement": "Whatever the writes to the standard output do, it receives the beginning of the output jpath has when no write fails; jpath ends as it does then, or reports the failure of its last write; no write follows a failed one, none is empty, and all but the last have at least 4096 bytes.", "quantifier": "every run of jpath, every way in which writes to the standard output can fail", "why_tests_cant": "devices fill up and pipes close at arbitrary bytes of arbitrary outputs", "anchors": ["cmd/jpath/jpath.go:main,errorf,readValues,readLines"]}
{"id": "C78", "title": "jpath succeeds only if its output was written", "statement": "When jpath exits with status 0, all of its output was written.", "quantifier": "every run of jpath, every way in which writes to the standard output can fail", "why_tests_cant": "tests write to devices that do not fail; the failure of the final flush, whose result is dropped, shows only in what is missing", "anchors": ["cmd/jpath/jpath.go:main,errorf"]}
{"id": "C79", "title": "Paths can be relocated", "statement": "If the first steps of a path select exactly one value, and the expressions in its other steps do not mention $, the path has the outcome of its other steps on that value as the document.", "quantifier": "every accepted path, every way to split it, every document, every iteration order", "why_tests_cant": "whether a step depends on more than what the steps before selected shows only on some combinations of steps and documents", "anchors": ["mach/run.go:Run,applySelection,looptop", "mach/coder.go:Compile"]}
{"id": "C80", "title": "Descent unfolds", "statement": "..x selects, up to order, what x selects and what ..x selects from the children, where x is a member, a subscript, a union of names, strings and integers, or *; none of them fails.", "quantifier": "every such selector, every document, every selection, independent iteration orders", "why_tests_cant": "nesting of documents is unbounded, and iteration orders are random", "anchors": ["mach/run.go:walker,walkdown,valsByKey,valsWild"]}
{"id": "C81", "title": "What the text of a step tells", "statement": "Two steps of paths have the same text (Step.String) exactly when they have the same operation and the same arguments, except that a name may stand for a string and only the outermost operator of an expression is told. Paths with no expression as an argument and the same texts have the same results; in general two paths with the same texts can select differently.", "quantifier": "every pair of steps, every pair of accepted paths, every document, every quoting of strings that can be undone", "why_tests_cant": "compares the texts of all pairs of steps, with arguments of any size and number", "anchors": ["paths/path.go:Step.String", "paths/ops.go:GoString", "paths/val.go:Slice", "paths/expr.go:Expr"]}
{"id": "C82", "title": "What is selected from a document that grows", "statement": "If members are added to the objects of a document, and elements to the ends of its arrays, a path of names, strings and integers, * and .. still selects everything it selected before (itself possibly grown), and neither evaluation fails. Indices counted from the end are allowed if arrays keep their lengths. With slices, filters, or indices counted from the end of growing arrays, values can be lost.", "quantifier": "every such path, every pair of documents of which one is the other grown anywhere, independent iteration orders", "why_tests_cant": "compares two evaluations on pairs of unbounded documents, under independent random iteration orders", "anchors": ["mach/run.go:valsByKey,valsWild,unionVals,walker,walkdown"]}
{"id": "C83", "title": "How much a path can select", "statement": "The total size of the values selected is at most the size of the document times the product, over the steps, of the number of elements of a union and the depth of the document for each \"..\". With unions the number of values can double at each step.", "quantifier": "every accepted path whose program fits, every document, every iteration order; paths of up to a million steps for the doubling", "why_tests_cant": "a bound over unbounded documents and paths", "anchors": ["mach/run.go:valsByKey,valsWild,unionVals,walker,walkdown,applySelection"]}
{"id": "C84", "title": "Script expressions mean the same alone and in paths", "statement": "ParseScriptExpression accepts a text with some tree exactly when ParsePath accepts $[?(text)], $[(text)] and $.(text) as a path of one step with that tree as its argument.", "quantifier": "every text, every tree, the three notations", "why_tests_cant": "relates two entry points of the parser, which stop at the end of the text and at a parenthesis, on all texts", "anchors": ["paths/parseexpr.go:ParseScriptExpression,parseScriptExpr", "paths/parsepath.go:ParsePath,parseVal", "paths/lexexpr.go:lexExpr"]}
{"id": "C85", "title": "Compiling paths built by hand", "statement": "mach.Compile ends for every Path. It panics exactly when some step has an operator that carries a value but no argument, or an argument contains an inner node with such an operator that is reached; otherwise it gives a program with one order for each part that is reached, or reports too many values. No parsed path makes it panic.", "quantifier": "every path whose steps and expressions have any operators and operands, with no sharing of pointers and no nil", "why_tests_cant": "Path and Expr are exported types, and the paths that can be built from them include shapes the parser never gives", "anchors": ["mach/coder.go:Compile,codeStep,codeLoop,codeVal,codeExpr,codeLeaf,codeOp,mkVal", "paths/ops.go:IsLeaf,HasVal", "paths/path.go:Step"]}
{"id": "C86", "title": "Evaluating paths built by hand", "statement": "Every path that compiles can be evaluated: the evaluation ends, without a panic other than that of a slice, with what the path means.", "quantifier": "every path, every document, every order of maps", "why_tests_cant": "Path is an exported type: its values include steps the parser never gives, and non-termination cannot be observed by a test", "anchors": ["mach/coder.go:Compile", "mach/run.go:Run,looptop,branch,pop", "paths/path.go:Step"]}
{"id": "C87", "title": "The arguments of jpath", "statement": "jpath reads its arguments in exactly one way: some settings of -l, the last of which counts, then the path and the files, which follow -- or start at the first argument that is no flag. It then does what that setting, path and files say; package flag refuses every other list. A path that compiles is never taken for a flag, and what follows it is always a file. The refusal answers a request for help exactly if the first argument that does not set the flag is -h or -help, with or without a value.", "quantifier": "every list of arguments, files, input and library behaviour", "why_tests_cant": "the lists of arguments and the spellings of the flag are infinitely many, and the tests do not run the command", "anchors": ["cmd/jpath/jpath.go:main"]}
{"id": "C88", "title": "%#v tells lexemes apart", "statement": "Two lexemes read from texts by any of the three lexical analysers that print the same with %#v have the same token and value, or are the same error. What is printed starts with an exclamation mark and goes on exactly if there was an error.", "quantifier": "every two texts, positions in them and analysers", "why_tests_cant": "the texts and values are infinitely many; the tests compare tokens by these names, so that two that print the same would pass for each other", "anchors": ["paths/lex.go:GoString", "paths/tokens.go:GoString", "paths/lex_test.go:testForm"]}
{"id": "C89", "title": "Floating-point arithmetic rounds the exact result", "statement": "With a floating-point operand, +, -, * and / by other than zero give the double closest to the exact rational result, the one with an even mantissa if two are equally close, infinity from 2^1024-2^970 on, and IEEE 754's results for signed zeros, infinities and NaN; integers become the closest double first. sum, prod and avg round after each element in order. The result is determined.", "quantifier": "every pair of operands one of which is a double, every array of numbers", "why_tests_cant": "2^128 pairs of doubles; ties, overflow and subnormal results are each a vanishing share of them", "anchors": ["mach/run.go:arith,Run (OpAdd,OpSub,OpMul,OpDiv)", "mach/json.go:cvf", "mach/fns.go:sum,prod,avg,arithArrayOp"]}
{"id": "C90", "title": "Comparisons order values", "statement": "< is irreflexive and transitive over values of all kinds, a < b is b > a and a <= b is b >= a. Exactly one of <, == and > holds of two numbers other than NaN, be they integers or doubles, and <= and >= are the negations of > and <. <= and == are transitive but for two different integers compared by way of a double that both become, where they are not.", "quantifier": "all values; all triples of integers, Booleans and doubles", "why_tests_cant": "the exceptions are integers beyond 2^53 compared with doubles, among 2^192 triples", "anchors": ["mach/run.go:relation,Run (OpLT,OpLE,OpGE,OpGT,OpEQ)", "mach/json.go:eqNum,eqVal,cvf,cvi"]}
{"id": "C91", "title": "Integers and their texts", "statement": "A text is read as an integer exactly if it is digits with an optional sign and its value has 64 bits, and its value is that. An integer is == to the strings that are read as it and to no others, except that 0 is also == to the empty string and to every string that is read as a number but not as an integer; the order of the operands does not matter.", "quantifier": "all texts and integers", "why_tests_cant": "infinitely many texts; the exception for 0 depends on what strconv.ParseFloat accepts", "anchors": ["mach/json.go:cvi,badNum,eqVal,eqNum", "paths/lex.go:lexNumber"]}
{"id": "C92", "title": "Laws of arithmetic", "statement": "+ and * commute for all operands, numbers or not. For integers and Booleans they are associative, * distributes over + and -, and (a/b)*b + a%b is a unless b is 0, even where the results wrap. a - b is a + (-b) for integers and where b is a double. Sums of doubles are not associative.", "quantifier": "all operands", "why_tests_cant": "2^192 triples of integers; the cases in which results wrap are easily missed", "anchors": ["mach/run.go:arith,divide,Run (OpAdd,OpSub,OpMul,OpDiv,OpMod,OpNeg)"]}
{"id": "C93", "title": "Laws of the functions on arrays", "statement": "sum, prod and avg of integers and Booleans are exact (avg: the double closest to the mean), do not depend on the order of the elements, and avg is not below min or above max, as long as no sum or product of some of the elements exceeds 2^53. min and max of numbers do not depend on their order, up to the sign of a zero. keys(o) is as long as o, and contains(a, x) is x in a. Beyond that the order matters and avg can exceed max.", "quantifier": "all arrays, orders of their elements, objects and values", "why_tests_cant": "unboundedly many arrays and n! orders of each", "anchors": ["mach/fns.go:functions (sum,prod,avg,min,max,keys,length,contains),arithArrayOp,minMaxArray"]}
{"id": "C94", "title": "Equivalent expressions can be exchanged", "statement": "If two script expressions give the same values and errors for every value of @, then any two accepted paths that differ only by having one in place of the other, at any depth of any step's expressions, evaluate to the same outcomes. Equivalent are a != b and !(a == b), !(a && b) and !a || !b, !(a || b) and !a && !b, (a && b) && c and a && (b && c), a == literal and literal == a, for all expressions; and a + b and b + a, a * b and b * a, a < b and b > a, a <= b and b >= a if one operand gives no error. Not equivalent are x nin y and !(x in y), a >= b and !(a < b), and the two groupings of ||.", "quantifier": "all paths, expressions, contexts, documents and orders of iteration", "why_tests_cant": "unboundedly many expressions, and contexts to put them in", "anchors": ["mach/run.go:Run", "mach/coder.go:Compile"]}
{"id": "C95", "title": "Equal conditions can be exchanged", "statement": "If two script expressions are true, are false and give errors for the same values of @, then any two accepted paths that differ only by having one in place of the other as a filter, or as an operand of !, && or || in a filter, evaluate to the same outcomes. Equal conditions are !!a and a; the groupings of && and of ||; a && (b || c) and (a && b) || (a && c), and dually; a && b and b && a, and a || b and b || a, if one operand gives no error; and x in [l1, ..., ln] and x == l1 || ... || x == ln for literals other than null. With null they are not equal.", "quantifier": "all paths, conditions, contexts, lists of literals, documents and orders of iteration", "why_tests_cant": "unboundedly many conditions, lists and contexts", "anchors": ["mach/run.go:Run (OpFilter, OpNestFilter, OpAnd, OpOr, OpNot, OpIn)", "mach/json.go:searchJSON"]}
{"id": "C96", "title": "Every value in a document can be addressed", "statement": "The text $ followed by ['name'] (quoted and escaped) or [index] for each key on the way to a value is read as exactly those keys, different places have different texts, and it selects the value at that place and nothing else, whatever the order of iteration over maps; where there is nothing it selects nothing and does not fail, except that an index met by an object is the member named by its decimal. Hence every value that a path without filters selects can be selected alone.", "quantifier": "all documents, all places in them of any depth, all names and indices, all orders of iteration", "why_tests_cant": "unboundedly many documents, names and depths", "anchors": ["paths/parsepath.go:ParsePath", "mach/run.go:valsByKey", "mach/run.go:valByKey"]}
{"id": "C97", "title": "No place is selected twice", "statement": "A path without unions and with at most one .. selects values at pairwise different places of the document, so at most as many as the document has values, or, with a filter, a single null. Without .. and with no slice going backwards, what comes from the elements of an array comes in the order of the elements. With a union or a second .. a place can be selected twice; with .. or a slice going backwards the order can be another.", "quantifier": "all accepted texts, all documents, all orders of iteration", "why_tests_cant": "unboundedly many documents and paths; equal values hide a repeated place from a test that compares values", "anchors": ["mach/run.go:valsByKey", "mach/run.go:valsWild", "mach/run.go:walkdown", "mach/run.go:slicing", "mach/run.go:stepping"]}
{"id": "C98", "title": "A path is a pattern for places", "statement": "A path of names, strings, integers and wildcards, with unions and .. anywhere, never fails, and the places it selects from are exactly those whose keys match it step by step, with any keys allowed before the key of a step after .. ; without unions and with at most one .. each of them once. In particular $..* selects every value of the document but the root exactly once, and $..name every member of that name exactly once.", "quantifier": "all accepted texts of such paths, all documents, all orders of iteration", "why_tests_cant": "exactness says that no place is missed or added in any of unboundedly many documents", "anchors": ["mach/run.go:valsByKey", "mach/run.go:valByKey", "mach/run.go:valsWild", "mach/run.go:walkdown", "mach/run.go:walker"]}
{"id": "C99", "title": "A change in one place acts on that place alone", "statement": "If a document is changed at one place, a path of names, strings, integers and wildcards, with unions and .. anywhere, selects the same places as before outside the changed value, and at places that neither contain it nor lie in it the same values. A change that meets no place selected before or after leaves the results as they were, but perhaps for their order, and in the same order if no object has more than one member.", "quantifier": "all accepted texts of such paths, all documents, all places and all changes, all orders of iteration", "why_tests_cant": "pairs of documents that differ in one place are unbounded in number; nothing else in the document may matter", "anchors": ["mach/run.go:valsByKey", "mach/run.go:valByKey", "mach/run.go:valsWild", "mach/run.go:walkdown", "mach/run.go:walker"]}
{"id": "C100", "title": "Paths of literals agree with a reference evaluator", "statement": "For paths of names, strings, integers and wildcards, with unions and .. anywhere, the compiled program gives, never failing, exactly the values a ten-line recursive evaluator over the document gives, with the same multiplicities and in some order, and in the same order if no object has two members.", "quantifier": "all accepted texts of such paths, all documents, all orders of iteration", "why_tests_cant": "differential testing against a reference samples finitely many documents and paths", "anchors": ["mach/run.go:valsByKey", "mach/run.go:valByKey", "mach/run.go:valsWild", "mach/run.go:walkdown", "mach/run.go:walker", "mach/coder.go:Compile", "mach/run.go:Run"]}
{"id": "C101", "title": "Member names carry no meaning", "statement": "If the members of a document are given other names, different ones for different members, and the names in a path of names, strings, integers and wildcards are changed alike, the results are those of the first document with their members renamed, in some order. The members that the integers of the path name by their decimals have to keep their names.", "quantifier": "all such paths, all documents, all injective renamings, all orders of iteration", "why_tests_cant": "no finite set of names shows that no name is treated specially", "anchors": ["mach/run.go:valsByKey", "mach/run.go:valByKey", "mach/run.go:valsWild", "mach/run.go:walkdown", "mach/run.go:walker"]}
{"id": "C102", "title": "Paths with slices agree with a reference evaluator", "statement": "For paths without expressions, slices included, the compiled program gives exactly the list of values a short recursive evaluator over the document gives, and panics exactly when that reports a stride leaving the int64 range, provided no object has two members or the path has no * and no .. step. The evaluator shows the one peculiarity of slices: applied to something other than an array, a slice discards what the step had selected until then. If slices meet arrays only, the values agree, with multiplicities, for all documents and orders of iteration.", "quantifier": "all accepted texts of paths without expressions, all documents, all orders of iteration", "why_tests_cant": "differential testing against a reference samples finitely many documents, bounds and strides", "anchors": ["mach/run.go:slicing", "mach/run.go:sliceEval", "mach/run.go:valsByKey", "mach/run.go:valByKey", "mach/run.go:walkdown", "mach/coder.go:Compile", "mach/run.go:Run"]}
{"id": "C103", "title": "Every path agrees with a reference evaluator", "statement": "For every path, with all filters, scripts, operators and functions, the compiled program gives exactly what a short evaluator over the document gives, if no object has two members, or keys is not called and no object that a step lists has two: the same list of values, the same error (an unknown function, a wrong number of arguments, in without an array, =~ without texts or with a bad pattern), or a panic when that reports a slice's stride leaving the int64 range. If slices meet arrays only and keys is not called, the values agree, with multiplicities, for all documents and orders of iteration, and errors arise for the same documents. Operands are always evaluated, also those of && and ||, and the first error from left to right is reported; what else cannot be computed counts as false, or selects nothing.", "quantifier": "all accepted texts of paths, all documents, all orders of iteration", "why_tests_cant": "differential testing against a reference samples finitely many conditions and documents", "anchors": ["mach/run.go:Run", "mach/run.go:arith", "mach/run.go:divide", "mach/run.go:relation", "mach/json.go:cvb", "mach/run.go:valsByKey", "mach/run.go:walkdown", "mach/coder.go:Compile", "mach/fns.go", "mach/run.go:searchJSON"]}
{"id": "C104", "title": "Only the objects that are listed need an order", "statement": "For paths without keys(): if none of the objects listed by a *, a filter or a .. step has two members, every order of iteration over maps gives the same values in the same order, or the same error, however many members other objects have. Conversely, if a path ends in * and reaches an object with two different members, some orders of iteration give different lists.", "quantifier": "all accepted texts, all documents, all pairs of orders of iteration", "why_tests_cant": "Go randomizes the order of iteration; a test sees a few of the orders, and cannot show that none matters", "anchors": ["mach/run.go:Run", "mach/run.go:walkdown", "mach/run.go:valsWild", "mach/run.go:valByKey"]}
{"id": "C105", "title": "What a traced run writes", "statement": "Tracing has no influence on the result. It writes three lines for each order executed and none for an order that fails: the operator's name, the results so far and the stack, each value on one line, exactly as the encoder writes it if that is one line. A run of a compiled path that succeeds ends with a list of its results and an empty stack.", "quantifier": "all programs, all documents, all encoders whose errors are single lines, all orders of iteration", "why_tests_cant": "a trace is never taken, and its lines depend on every state of a run", "anchors": ["mach/run.go:Run", "mach/json.go:jsonString"]}
